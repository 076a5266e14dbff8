(** * The read side of an IO (/repo/monoruby/src/value/rvalue/io/buf.rs:92-213,
    io.rs:222-383, 1003-1740, 1764-1800; builtins/io.rs:1751, 3214, 3289)

    A descriptor with its offset, the 8 KiB read buffer, the pushback bytes, and what is
    waiting in the write buffer (see WbufModel; here it goes out whole).  The kernel's
    answers and the moments at which a signal is pending are given by a list of events; an
    operation for which the list is too short, or has the wrong kind of event next, has no
    result.  [fuel] bounds the number of turns of a loop.

    A pipe or socket is a file that cannot seek whose content is all that will ever arrive;
    EAGAIN may be answered at any time.

    Not here: paragraph mode, the completion of a character cut by a limit (io.rs:1669),
    encodings, IO#ungetc's character handling, files changed by others. *)

From Coq Require Import ZArith Bool List.
Import ListNotations.
Local Open Scope Z_scope.

(** read(2): some bytes, but no more than [n] (at least one if there are any); EINTR;
    EAGAIN; another error. *)
Inductive answer := Got (n : nat) | Eintr | Eagain | Fail.

(** [P b]: signal_pending() is [b]; [K a b]: read(2) answers [a], and a signal is pending
    after it iff [b]. *)
Inductive event := P (b : bool) | K (a : answer) (b : bool).

Inductive iokind := KFile (seekable : bool) | KPopen | KStdin.

(** buf.rs:96 IoReader ([page] is buf[..cap]) and io.rs:407 FileDescriptor. *)
Record io := Mk {
  kind : iokind;
  content : list Z;
  off : nat;              (* the descriptor's offset *)
  page : list Z;
  pos : nat;
  pushback : list Z;
  wpend : list Z          (* accepted by a write, not yet written out *)
}.

Definition set_off (s : io) (n : nat) : io :=
  Mk (kind s) (content s) n (page s) (pos s) (pushback s) (wpend s).
Definition set_page (s : io) (p : list Z) (k : nat) : io :=
  Mk (kind s) (content s) (off s) p k (pushback s) (wpend s).
Definition set_pushback (s : io) (b : list Z) : io :=
  Mk (kind s) (content s) (off s) (page s) (pos s) b (wpend s).

(** buf.rs:33, io.rs:239. *)
Definition capa : nat := Z.to_nat 8192.
Definition chunk : nat := Z.to_nat 8192.

(** buf.rs:122 buffer, 137 discard_buffer, 176 consume. *)
Definition rest (s : io) : list Z := skipn (pos s) (page s).
Definition discard (s : io) : io := set_page s [] 0.
Definition consume (n : nat) (s : io) : io := set_page s (page s) (Nat.min (pos s + n) (length (page s))).

(** What a read reports: bytes; a signal is pending, or EINTR ([b]: with a signal pending);
    EAGAIN; an error. *)
Inductive att := ABytes (b : list Z) | AIntr (b : bool) | AAgain | AFail.

(** How many of the [want] bytes asked for the kernel hands out. *)
Definition served (want n : nat) : nat := Nat.min want (Nat.max 1 n).
(** inner.read(&mut out[..want]). *)
Definition direct_read (want : nat) (evs : list event) (s : io) : option (att * io * list event) :=
  match evs with
  | K (Got n) _ :: evs' =>
      let b := firstn (served want n) (skipn (off s) (content s)) in
      Some (ABytes b, set_off s (off s + length b), evs')
  | K Eintr p :: evs' => Some (AIntr p, s, evs')
  | K Eagain _ :: evs' => Some (AAgain, s, evs')
  | K Fail _ :: evs' => Some (AFail, s, evs')
  | _ => None
  end.

(** buf.rs:164-174 fill_buf. *)
Definition fill_buf (evs : list event) (s : io) : option (att * io * list event) :=
  if Nat.leb (length (page s)) (pos s) then
    match direct_read capa evs s with
    | Some (ABytes b, s', evs') => Some (ABytes b, set_page s' b 0, evs')
    | r => r
    end
  else Some (ABytes (rest s), s, evs).

(** buf.rs:143-160 IoReader::read. *)
Definition buffered_read (want : nat) (evs : list event) (s : io) : option (att * io * list event) :=
  if Nat.eqb (pos s) (length (page s)) && Nat.leb capa want then direct_read want evs (discard s)
  else match fill_buf evs s with
  | Some (ABytes avail, s', evs') =>
      let n := Nat.min (length avail) want in
      Some (ABytes (firstn n avail), consume n s', evs')
  | r => r
  end.

(** Reading from the descriptor itself ([true]) or through the buffer. *)
Definition attempt (exact : bool) := if exact then direct_read else buffered_read.

(** io.rs:229-236 read_step. *)
Fixpoint read_step (fuel : nat) (exact : bool) (want : nat) (evs : list event) (s : io)
  : option (att * io * list event) :=
  match fuel with
  | O => None
  | S f =>
      match attempt exact want evs s with
      | Some (AIntr false, s', evs') => read_step f exact want evs' s'
      | r => r
      end
  end.

(** How the loops below end. *)
Inductive fin := FOk | FSig | FAgain | FFail.
Definition fin_of (a : att) : fin :=
  match a with ABytes _ => FOk | AIntr _ => FSig | AAgain => FAgain | AFail => FFail end.

(** io.rs:245-276 read_upto. *)
Fixpoint read_upto (fuel : nat) (exact : bool) (len : nat) (out : list Z) (evs : list event) (s : io)
  : option (fin * list Z * io * list event) :=
  match fuel with
  | O => None
  | S f =>
      if Nat.leb len (length out) then Some (FOk, out, s, evs) else
      match evs with
      | P true :: evs1 => Some (FSig, out, s, evs1)
      | P false :: evs1 =>
          match read_step fuel exact (Nat.min (len - length out) chunk) evs1 s with
          | Some (ABytes [], s', evs') => Some (FOk, out, s', evs')
          | Some (ABytes b, s', evs') => read_upto f exact len (out ++ b) evs' s'
          | Some (a, s', evs') => Some (fin_of a, out, s', evs')
          | None => None
          end
      | _ => None
      end
  end.

(** io.rs:280-301 read_all. *)
Fixpoint read_all (fuel : nat) (out : list Z) (evs : list event) (s : io)
  : option (fin * list Z * io * list event) :=
  match fuel with
  | O => None
  | S f =>
      match evs with
      | P true :: evs1 => Some (FSig, out, s, evs1)
      | P false :: evs1 =>
          match read_step fuel false chunk evs1 s with
          | Some (ABytes [], s', evs') => Some (FOk, out, s', evs')
          | Some (ABytes b, s', evs') => read_all f (out ++ b) evs' s'
          | Some (a, s', evs') => Some (fin_of a, out, s', evs')
          | None => None
          end
      | _ => None
      end
  end.

(** avail.iter().position(|&b| b == delim). *)
Fixpoint find_byte (d : Z) (l : list Z) : option nat :=
  match l with
  | [] => None
  | b :: r => if Z.eqb b d then Some O else option_map S (find_byte d r)
  end.

(** io.rs:306-343 read_until_step. *)
Fixpoint read_until (fuel : nat) (d : Z) (out : list Z) (evs : list event) (s : io)
  : option (fin * list Z * io * list event) :=
  match fuel with
  | O => None
  | S f =>
      match evs with
      | P true :: evs1 => Some (FSig, out, s, evs1)
      | P false :: evs1 =>
          match fill_buf evs1 s with
          | Some (ABytes avail, s', evs') =>
              match find_byte d avail with
              | Some i => Some (FOk, out ++ firstn (S i) avail, consume (S i) s', evs')
              | None =>
                  match avail with
                  | [] => Some (FOk, out, s', evs')
                  | _ => read_until f d (out ++ avail) evs' (consume (length avail) s')
                  end
              end
          | Some (AIntr false, s', evs') => read_until f d out evs' s'
          | Some (a, s', evs') => Some (fin_of a, out, s', evs')
          | None => None
          end
      | _ => None
      end
  end.

(** The result of an operation: bytes; the signal or EAGAIN marker, on which the caller
    runs the poll or parks and tries again (builtins/io.rs:1411); an exception. *)
Inductive result := Bytes (b : list Z) | Sig | Again | Error.

(** Writing [d] at the descriptor's offset. *)
Definition overwrite (c : list Z) (k : nat) (d : list Z) : list Z :=
  firstn k (c ++ repeat 0 (k - length c)) ++ d ++ skipn (k + length d) c.
(** io.rs:446 drain_wbuf, 1003 flush_wbuf_before_read (Popen writes elsewhere). *)
Definition flush_w (s : io) : io :=
  match kind s, wpend s with
  | KFile _, _ :: _ =>
      Mk (kind s) (overwrite (content s) (off s) (wpend s)) (off s + length (wpend s))
        (page s) (pos s) (pushback s) []
  | _, _ => s
  end.

(** io.rs:973, for data that fits the buffer. *)
Definition write (d : list Z) (s : io) : io :=
  Mk (kind s) (content s) (off s) (page s) (pos s) (pushback s) (wpend s ++ d).

(** io.rs:1042 pushback_cell: stdin has none. *)
Definition has_cell (s : io) : bool := match kind s with KStdin => false | _ => true end.
(** splice(0..0, b). *)
Definition unread (b : list Z) (s : io) : io :=
  if has_cell s then set_pushback s (b ++ pushback s) else s.
(** io.rs:1062 unget. *)
Definition unget (b : list Z) (s : io) : result * io :=
  if has_cell s then (Bytes [], unread b s) else (Error, s).

(** io.rs:1162-1172, 1177-1257: what a finished loop means; on an interrupt the bytes read
    so far go back. *)
Definition conclude (r : fin * list Z * io * list event) : result * io * list event :=
  match r with
  | (FOk, b, s, evs) => (Bytes b, s, evs)
  | (FSig, b, s, evs) => (Sig, unread b s, evs)
  | (FAgain, b, s, evs) => (Again, unread b s, evs)
  | (FFail, b, s, evs) => (Error, s, evs)
  end.

(** io.rs:1149-1259 read_underlying. *)
Definition read_underlying (fuel : nat) (len : option nat) (exact : bool) (evs : list event) (s0 : io)
  : option (result * io * list event) :=
  let s := flush_w s0 in
  option_map conclude
    (match len with
     | None => read_all fuel [] evs s
     | Some n =>
         match kind s, exact with
         | KFile _, true =>
             let avail := Nat.min (length (rest s)) n in
             read_upto fuel true n (firstn avail (rest s)) evs (consume avail s)
         | _, _ => read_upto fuel false n [] evs s
         end
     end).

(** io.rs:1093-1144 read_impl, read_more_preserving. *)
Definition read_more (fuel : nat) (out : list Z) (len : option nat) (exact : bool)
  (evs : list event) (s : io) : option (result * io * list event) :=
  match read_underlying fuel len exact evs s with
  | Some (Bytes b, s', evs') => Some (Bytes (out ++ b), s', evs')
  | Some (Sig, s', evs') => Some (Sig, unread out s', evs')
  | Some (Again, s', evs') => Some (Again, unread out s', evs')
  | r => r
  end.
Definition read_impl (fuel : nat) (len : option nat) (exact : bool) (evs : list event) (s : io)
  : option (result * io * list event) :=
  match pushback s with
  | [] => read_underlying fuel len exact evs s
  | pb =>
      match len with
      | Some n =>
          if Nat.leb n (length pb) then Some (Bytes (firstn n pb), set_pushback s (skipn n pb), evs)
          else read_more fuel pb (Some (n - length pb)%nat) exact evs (set_pushback s [])
      | None => read_more fuel pb None exact evs (set_pushback s [])
      end
  end.

(** The whences of io.rs:1764 seek; lseek(2) refuses a result that is negative or does not
    fit 63 bits, and a pipe. *)
Inductive whence := Set_ | Cur | End_.
Definition i64_min : Z := - 2 ^ 63.
Definition lseek (w : whence) (o : Z) (s : io) : option io :=
  let target := match w with
                | Set_ => o
                | Cur => Z.of_nat (off s) + o
                | End_ => Z.of_nat (length (content s)) + o
                end in
  match kind s with
  | KFile true =>
      if (0 <=? target) && (target <? 2 ^ 63) then Some (set_off s (Z.to_nat target)) else None
  | _ => None
  end.
(** buf.rs:190-212 IoReader::seek; the result says whether it succeeded. *)
Definition reader_seek (w : whence) (o : Z) (s : io) : bool * io :=
  match w with
  | Cur =>
      let remainder := Z.of_nat (length (rest s)) in
      if i64_min <=? o - remainder then
        match lseek Cur (o - remainder) s with
        | Some s' => (true, discard s')
        | None => (false, s)
        end
      else
        match lseek Cur (- remainder) s with
        | Some s' =>
            match lseek Cur o (discard s') with
            | Some s'' => (true, discard s'')
            | None => (false, discard s')
            end
        | None => (false, s)
        end
  | _ => match lseek w o s with Some s' => (true, discard s') | None => (false, s) end
  end.
(** io.rs:1764-1800 seek. *)
Definition seek (w : whence) (o : Z) (s : io) : bool * io :=
  match kind s with
  | KFile _ => reader_seek w o (flush_w s)
  | _ => (false, s)
  end.

(** io.rs:1261-1343 sysread. *)
Definition sysread (fuel : nat) (maxlen : nat) (evs : list event) (s0 : io)
  : option (result * io * list event) :=
  let s1 := flush_w s0 in
  let out := firstn maxlen (pushback s1) in
  let s2 := set_pushback s1 (skipn maxlen (pushback s1)) in
  if Nat.leb maxlen (length out) then Some (Bytes out, s2, evs) else
  let s3 := match kind s2 with KFile _ => snd (reader_seek Cur 0 s2) | _ => s2 end in
  match read_step fuel true (maxlen - length out) evs s3 with
  | Some (ABytes b, s', evs') => Some (Bytes (out ++ b), s', evs')
  | Some (AIntr _, s', evs') => Some (Sig, unread out s', evs')
  | Some (AAgain, s', evs') => Some (Again, unread out s', evs')
  | Some (AFail, s', evs') => Some (Error, s', evs')
  | None => None
  end.

(** io.rs:1363-1400 read_nonblock: Bytes [] is end of file, Again `would block`. *)
Definition read_nonblock (maxlen : nat) (evs : list event) (s0 : io)
  : option (result * io * list event) :=
  let s1 := flush_w s0 in
  match pushback s1 with
  | _ :: _ => Some (Bytes (firstn maxlen (pushback s1)), set_pushback s1 (skipn maxlen (pushback s1)), evs)
  | [] =>
      let s2 := match kind s1 with KFile _ => snd (reader_seek Cur 0 s1) | _ => s1 end in
      match direct_read maxlen evs s2 with
      | Some (ABytes b, s', evs') => Some (Bytes b, s', evs')
      | Some (AAgain, s', evs') => Some (Again, s', evs')
      | Some (_, s', evs') => Some (Error, s', evs')
      | None => None
      end
  end.

(** io.rs:349-380 read_partial_chunk, when it may block. *)
Fixpoint fill_retry (fuel : nat) (evs : list event) (s : io) : option (att * io * list event) :=
  match fuel with
  | O => None
  | S f =>
      match fill_buf evs s with
      | Some (AIntr false, s', evs') => fill_retry f evs' s'
      | r => r
      end
  end.
(** io.rs:1427-1478 readpartial. *)
Definition readpartial (fuel : nat) (maxlen : nat) (evs : list event) (s0 : io)
  : option (result * io * list event) :=
  let s1 := flush_w s0 in
  let out := firstn maxlen (pushback s1) in
  let s2 := set_pushback s1 (skipn maxlen (pushback s1)) in
  if Nat.leb maxlen (length out) then Some (Bytes out, s2, evs) else
  let need := (maxlen - length out)%nat in
  match pushback s1 with
  | _ :: _ =>
      let n := Nat.min (length (rest s2)) need in
      Some (Bytes (out ++ firstn n (rest s2)), consume n s2, evs)
  | [] =>
      match fill_retry fuel evs s2 with
      | Some (ABytes _, s', evs') =>
          let n := Nat.min (length (rest s')) need in
          Some (Bytes (firstn n (rest s')), consume n s', evs')
      | Some (AIntr _, s', evs') => Some (Sig, s', evs')
      | Some (AAgain, s', evs') => Some (Again, s', evs')
      | Some (AFail, s', evs') => Some (Error, s', evs')
      | None => None
      end
  end.

(** io.rs:1487-1577 read_line_bytes: Bytes [] is nil. *)
Definition read_line (fuel : nat) (evs : list event) (s0 : io) : option (result * io * list event) :=
  let s := flush_w s0 in
  let underlying s1 := option_map conclude (read_until fuel 10 [] evs s1) in
  match pushback s with
  | [] => underlying s
  | pb =>
      match find_byte 10 pb with
      | Some i => Some (Bytes (firstn (S i) pb), set_pushback s (skipn (S i) pb), evs)
      | None =>
          match underlying (set_pushback s []) with
          | Some (Bytes b, s', evs') => Some (Bytes (pb ++ b), s', evs')
          | r => r
          end
      end
  end.

(** buf.ends_with(sep). *)
Fixpoint list_eqb (a b : list Z) : bool :=
  match a, b with
  | [], [] => true
  | x :: a', y :: b' => Z.eqb x y && list_eqb a' b'
  | _, _ => false
  end.
Definition ends_with (l sep : list Z) : bool :=
  Nat.leb (length sep) (length l) && list_eqb (skipn (length l - length sep) l) sep.
Definition at_limit (limit : option nat) (n : nat) : bool :=
  match limit with Some l => Nat.leb l n | None => false end.

(** io.rs:1581-1601, 1695-1722: read1_preserving and the loop for a separator that is not
    "\n" or comes with a limit. *)
Fixpoint getline_loop (fuel : nat) (sep : list Z) (limit : option nat) (acc : list Z)
  (evs : list event) (s : io) : option (result * io * list event) :=
  match fuel with
  | O => None
  | S f =>
      if at_limit limit (length acc) then Some (Bytes acc, s, evs) else
      match read_impl fuel (Some 1%nat) true evs s with
      | Some (Bytes [], s', evs') => Some (Bytes acc, s', evs')
      | Some (Bytes (b :: _), s', evs') =>
          if ends_with (acc ++ [b]) sep then Some (Bytes (acc ++ [b]), s', evs')
          else getline_loop f sep limit (acc ++ [b]) evs' s'
      | Some (Sig, s', evs') => Some (Sig, unread acc s', evs')
      | Some (Again, s', evs') => Some (Again, unread acc s', evs')
      | Some (Error, s', evs') => Some (Error, s', evs')
      | None => None
      end
  end.

(** io.rs:1017 has_buffered_data; builtins/io.rs:3289 eof?. *)
Definition eof (fuel : nat) (evs : list event) (s : io) : option (result * bool * io) :=
  match pushback s, rest s with
  | [], [] =>
      match read_impl fuel (Some 1%nat) true evs s with
      | Some (Bytes [], s', _) => Some (Bytes [], true, s')
      | Some (Bytes b, s', _) =>
          match seek Cur (-1) s' with
          | (true, s'') => Some (Bytes [], false, s'')
          | (false, s'') =>
              match unget b s'' with (r, s3) => Some (r, false, s3) end
          end
      | Some (r, s', _) => Some (r, false, s')
      | None => None
      end
  | _, _ => Some (Bytes [], false, s)
  end.

(** builtins/io.rs:3214 pos. *)
Definition tell_op (s : io) : option Z * io :=
  match seek Cur 0 s with
  | (true, s') => (Some (Z.max 0 (Z.of_nat (off s') - Z.of_nat (length (pushback s)))), s')
  | (false, s') => (None, s')
  end.

(** A file just opened. *)
Definition opened (k : iokind) (c : list Z) : io := Mk k c 0 [] 0 [] [].

(** The operations on an IO; [fuel] and the events come with each attempt. *)
Inductive op :=
| Read (len : option nat) (exact : bool) (fuel : nat) (evs : list event)
| Sysread (n fuel : nat) (evs : list event)
| Nonblock (n : nat) (evs : list event)
| Partial (n fuel : nat) (evs : list event)
| Line (fuel : nat) (evs : list event)
| Getline (sep : list Z) (limit : option nat) (fuel : nat) (evs : list event)
| Eof (fuel : nat) (evs : list event)
| Tell
| Seek (w : whence) (o : Z)
| Unget (b : list Z)
| Write (d : list Z).

Definition drop_events (r : option (result * io * list event)) : option (result * io) :=
  match r with Some (a, s, _) => Some (a, s) | None => None end.

Definition step (s : io) (o : op) : option (result * io) :=
  match o with
  | Read len exact fuel evs => drop_events (read_impl fuel len exact evs s)
  | Sysread n fuel evs => drop_events (sysread fuel n evs s)
  | Nonblock n evs => drop_events (read_nonblock n evs s)
  | Partial n fuel evs => drop_events (readpartial fuel n evs s)
  | Line fuel evs => drop_events (read_line fuel evs s)
  | Getline sep limit fuel evs => drop_events (getline_loop fuel sep limit [] evs s)
  | Eof fuel evs => match eof fuel evs s with Some (r, _, s') => Some (r, s') | None => None end
  | Tell => match tell_op s with (Some _, s') => Some (Bytes [], s') | (None, s') => Some (Error, s') end
  | Seek w o => match seek w o s with (true, s') => Some (Bytes [], s') | (false, s') => Some (Error, s') end
  | Unget b => Some (unget b s)
  | Write d => match kind s with KFile _ => Some (Bytes [], write d s) | _ => None end
  end.
