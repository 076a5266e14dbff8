(** What C33 (and C55) ask of the read side: the file and the position Ruby sees. *)

From Coq Require Import ZArith Bool List.
From Verif Require Import RbufModel.
Import ListNotations.
Local Open Scope Z_scope.

(** The file with the pending writes in it. *)
Definition file (s : io) : list Z := content (flush_w s).
(** The bytes still to come. *)
Definition stream (s : io) : list Z :=
  let t := flush_w s in pushback t ++ rest t ++ skipn (off t) (content t).
(** The logical position. *)
Definition tell (s : io) : Z :=
  let t := flush_w s in
  Z.of_nat (off t) - Z.of_nat (length (rest t)) - Z.of_nat (length (pushback t)).

(** [b] was consumed: it is what was to come, and the position moved over it. *)
Definition consumed (b : list Z) (s s' : io) : Prop :=
  stream s = b ++ stream s' /\ tell s' = tell s + Z.of_nat (length b) /\
  file s' = file s /\ kind s' = kind s.

(** The first line of what is to come, with its newline. *)
Fixpoint line (l : list Z) : list Z :=
  match l with
  | [] => []
  | b :: r => if Z.eqb b 10 then [b] else b :: line r
  end.

(** [l] is what gets(sep, limit) may return from [str]: a prefix, that ends with the
    separator, or is as long as the limit, or is everything - and nothing shorter does. *)
Definition suffix (sep l : list Z) : Prop := exists a, l = a ++ sep.
Definition is_line (sep : list Z) (limit : option nat) (str l : list Z) : Prop :=
  exists r, str = l ++ r /\
    (suffix sep l \/ limit = Some (length l) \/ r = []) /\
    (forall a b, l = a ++ b -> a <> [] -> b <> [] -> ~ suffix sep a /\ limit <> Some (length a)).

(** How much an operation is asked for. *)
Definition fits (o : op) (str b : list Z) : Prop :=
  match o with
  | Read (Some n) _ _ _ => b = firstn n str
  | Read None _ _ _ => b = str
  | Sysread n _ _ | Nonblock n _ | Partial n _ _ =>
      (length b <= n)%nat /\ ((0 < n)%nat -> b = [] -> str = [])
  | Line _ _ => b = line str
  | Getline sep limit _ _ => is_line sep limit str b
  | _ => b = []
  end.

Definition is_read (o : op) : Prop :=
  match o with Seek _ _ | Unget _ | Write _ => False | _ => True end.

(** Where a seek should go. *)
Definition target (w : whence) (o : Z) (s : io) : Z :=
  match w with Set_ => o | Cur => tell s + o | End_ => Z.of_nat (length (file s)) + o end.

(** What the partial theorems leave out. *)
Definition plain (s : io) (o : op) : Prop :=
  match o with
  (* sysread and read_nonblock with something in the buffer, where there is no seeking *)
  | Sysread _ _ _ | Nonblock _ _ => kind s = KFile true \/ rest s = []
  (* eof? on stdin *)
  | Eof _ _ => kind s <> KStdin
  (* seeking with bytes pushed back *)
  | Seek _ _ => pushback s = []
  | Unget _ => True
  (* writing with bytes read ahead or pushed back; files of 2^63 bytes *)
  | Write d => rest s = [] /\ pushback s = [] /\
      Z.of_nat (off s + length (wpend s ++ d)) < 2 ^ 63 /\
      Z.of_nat (length (content s)) < 2 ^ 63
  | _ => True
  end.
(** ... and where an interrupt loses bytes: on stdin, and in gets when some are pushed back. *)
Definition restores (s : io) (o : op) : Prop :=
  kind s <> KStdin /\ match o with Line _ _ => pushback s = [] | _ => True end.

(** [c'] is [c] with [d] written at [k] (a hole reads as zeros). *)
Definition written (c : list Z) (k : nat) (d c' : list Z) : Prop :=
  length c' = Nat.max (length c) (k + length d) /\
  forall i, nth i c' 0 =
    if Nat.ltb i k then nth i c 0
    else if Nat.ltb i (k + length d) then nth (i - k) d 0 else nth i c 0.

Section History.
  Variable ok : io -> op -> Prop.
  Inductive history : io -> Prop :=
  | H_open k c : Z.of_nat (length c) < 2 ^ 63 -> history (opened k c)
  | H_step s o r s' : history s -> ok s o -> step s o = Some (r, s') -> history s'.
End History.

Definition no_unget (s : io) (o : op) : Prop :=
  plain s o /\ match o with Unget _ => False | _ => True end.

(** A signal is pending; and an operation with the events it was given and those it left. *)
Definition signals (e : event) : Prop := e = P true \/ e = K Eintr true.
Definition quiet (l : list event) : Prop := Forall (fun e => ~ signals e) l.
Definition given (o : op) : list event :=
  match o with
  | Read _ _ _ evs | Sysread _ _ evs | Nonblock _ evs | Partial _ _ evs | Line _ evs | Getline _ _ _ evs
  | Eof _ evs => evs
  | _ => []
  end.
Definition waits (o : op) (s : io) : option (result * io * list event) :=
  match o with
  | Read len exact fuel evs => read_impl fuel len exact evs s
  | Sysread n fuel evs => sysread fuel n evs s
  | Partial n fuel evs => readpartial fuel n evs s
  | Line fuel evs => read_line fuel evs s
  | Getline sep limit fuel evs => getline_loop fuel sep limit [] evs s
  | _ => None
  end.
(** The events used end at the first signal, or there is none in them. *)
Definition stops (interrupted : bool) (used : list event) : Prop :=
  if interrupted then exists u e, used = u ++ [e] /\ quiet u /\ signals e else quiet used.
