(** * The write side of an IO (/repo/monoruby/src/value/rvalue/io/buf.rs:225-410,
    io.rs:446-480, 669-725, 973-1002, 1405-1425; builtins/io.rs:1411-1485, 3700-3722)

    One stream, a write buffer in front of it, and any number of calls of IO#write in
    flight: a call whose write(2) reports EINTR or EAGAIN unwinds to the VM, where trap
    handlers and other green threads run and may write to the same IO, and is then tried
    again.  The kernel's answers and the moments at which a signal is pending are given by
    a list of events, one per turn of a loop.  A turn for which there is no event has not
    returned from the kernel, so the step is not over.

    Not here: encoding conversion of what is written (builtins/io.rs:987), the offset of
    the descriptor (see RbufModel), Kernel#p and #print (io.rs:68), which make one attempt
    only. *)

From Coq Require Import ZArith Bool List.
Import ListNotations.
Local Open Scope Z_scope.

(** What write(2) says: it took [n] bytes (of those offered), EINTR, EAGAIN, another error. *)
Inductive answer := Took (n : nat) | Eintr | Eagain | Fail.

(** One turn: is a signal pending before the call, the answer, and is one pending after it. *)
Record turn := T { before : bool; ans : answer; after : bool }.

(** Ok, or buf.rs:217-226 DrainErr. *)
Inductive res := ROk | RSignal | RAgain | RErr.

(** buf.rs:33 IO_BUF_CAPA. *)
Definition capa : Z := 8192.

(** A loop that writes data[k..] out: buf.rs:291-319 and 374-399 have the same body.  [out]
    is what the kernel has taken so far; the result says how it stopped, the new [k] and
    the new [out], or that there is no turn left.  Ok(0) is an error (302, 383). *)
Fixpoint push_out (ts : list turn) (data : list Z) (k : nat) (out : list Z)
  : option (res * nat * list Z) :=
  if Nat.leb (length data) k then Some (ROk, k, out) else
  match ts with
  | [] => None
  | t :: ts' =>
      if before t then Some (RSignal, k, out) else
      match ans t with
      | Took n =>
          let got := firstn n (skipn k data) in
          match got with
          | [] => Some (RErr, k, out)
          | _ => push_out ts' data (k + length got)%nat (out ++ got)
          end
      | Eintr => if after t then Some (RSignal, k, out) else push_out ts' data k out
      | Eagain => Some (RAgain, k, out)
      | Fail => Some (RErr, k, out)
      end
  end.

(** buf.rs:227-240 WriteBuf, and the stream behind it. *)
Record wbuf := W { buf : list Z; sync : bool; tty : bool; out : list Z }.

(** buf.rs:277 *)
Definition writes_through (w : wbuf) : bool := sync w || tty w.

(** buf.rs:286-324 drain: what the kernel took is dropped from the buffer however the loop
    ended. *)
Definition drain (ts : list turn) (w : wbuf) : option (res * wbuf) :=
  match push_out ts (buf w) 0 (out w) with
  | None => None
  | Some (r, k, o) => Some (r, W (skipn k (buf w)) (sync w) (tty w) o)
  end.

(** buf.rs:344-361 write: accept data[*progress..]; the third component is *progress.  The
    buffer is drained with [ts1], the rest goes out with [ts2]. *)
Definition write (ts1 ts2 : list turn) (data : list Z) (progress : nat) (w : wbuf)
  : option (res * wbuf * nat) :=
  if negb (writes_through w)
     && (Z.of_nat (length (buf w)) + (Z.of_nat (length data) - Z.of_nat progress) <? capa)
  then Some (ROk, W (buf w ++ skipn progress data) (sync w) (tty w) (out w), length data)
  else
    match drain ts1 w with
    | Some (ROk, w1) =>
        match push_out ts2 data progress (out w1) with
        | Some (r, k, o) => Some (r, W (buf w1) (sync w1) (tty w1) o, k)
        | None => None
        end
    | Some (r, w1) => Some (r, w1, progress)
    | None => None
    end.

(** A call of IO#write: the bytes and `done` (builtins/io.rs:3715); how it ended. *)
Inductive call :=
| Unused
| Open (data : list Z) (done : nat)
| Ended (data : list Z) (done : nat) (ok : bool).

Record state := S_ { wb : wbuf; calls : nat -> call; gone : bool }.

Definition init (s t : bool) : state := S_ (W [] s t []) (fun _ => Unused) false.

Definition upd (f : nat -> call) (i : nat) (c : call) : nat -> call :=
  fun j => if Nat.eqb j i then c else f j.

Inductive label :=
| Start (i : nat) (data : list Z)
| Try (i : nat) (ts1 ts2 : list turn)      (* one attempt: io.rs:973 *)
| Abandon (i : nat)                        (* the handler raised: builtins/io.rs:1464 *)
| Flush (ts : list turn)                   (* io.rs:669; also before a read or a seek: 446, 1003 *)
| SetSync (b : bool)                       (* io.rs:702 *)
| Nonblock (i : nat) (data : list Z) (a : answer)  (* write_nonblock, io.rs:1405 *)
| Free.                                    (* the object is collected: io.rs:456 *)

(** builtins/io.rs:1411-1485 blocking_io_region: Ok and errors end the call; a pending
    signal and EAGAIN leave it to be tried again. *)
Definition after_try (data : list Z) (done : nat) (r : res) : call :=
  match r with
  | ROk => Ended data done true
  | RErr => Ended data done false
  | RSignal | RAgain => Open data done
  end.

Definition step (s : state) (l : label) : option state :=
  if gone s then None else
  match l with
  | Start i data =>
      match calls s i with
      | Unused => Some (S_ (wb s) (upd (calls s) i (Open data 0)) false)
      | _ => None
      end
  | Try i ts1 ts2 =>
      match calls s i with
      | Open data done =>
          match write ts1 ts2 data done (wb s) with
          | Some (r, w, done') => Some (S_ w (upd (calls s) i (after_try data done' r)) false)
          | None => None
          end
      | _ => None
      end
  | Abandon i =>
      match calls s i with
      | Open data done => Some (S_ (wb s) (upd (calls s) i (Ended data done false)) false)
      | _ => None
      end
  | Flush ts =>
      match drain ts (wb s) with
      | Some (r, w) => Some (S_ w (calls s) false)
      | None => None
      end
  | SetSync b => Some (S_ (W (buf (wb s)) b (tty (wb s)) (out (wb s))) (calls s) false)
  | Nonblock i data a =>
      (* one write(2) on the descriptor; the buffer is not looked at.  The caller is told
         how many bytes were taken, so those are the call's data. *)
      match calls s i with
      | Unused =>
          let w := wb s in
          match a with
          | Took n =>
              let got := firstn n data in
              Some (S_ (W (buf w) (sync w) (tty w) (out w ++ got))
                       (upd (calls s) i (Ended got (length got) true)) false)
          | _ => Some (S_ w (upd (calls s) i (Ended data 0 false)) false)
          end
      | _ => None
      end
  | Free => (* the descriptor is closed; nothing drains the buffer *)
      Some (S_ (W [] (sync (wb s)) (tty (wb s)) (out (wb s))) (calls s) true)
  end.

Fixpoint steps (s : state) (ls : list label) : option state :=
  match ls with
  | [] => Some s
  | l :: ls' => match step s l with Some s' => steps s' ls' | None => None end
  end.
