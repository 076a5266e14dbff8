(** Struct.

    Modelled: /repo/monoruby/src/builtins/struct_class.rs:293-452 (initialize,
    keyword_init) and /repo/monoruby/builtins/struct.rb:4-123 (size, each, to_a,
    to_h without a block, [], []=, values_at). The readers of the members are called by send.

    Names are numbers; 0 is the name size. Objects are nil, Integers, Hashes
    and others. *)
From Coq Require Import ZArith List Bool.
Import ListNotations.
Local Open Scope Z_scope.

Inductive exn := ArgErr | IndexErr | NameErr | TypeErr | FrozenErr | NoMethod | RangeErr.
Inductive res (A : Type) := Val (a : A) | Raise (e : exn).
Arguments Val {A}. Arguments Raise {A}.

(** Keys of a Hash: a Symbol, the String of the same name, another object. *)
Inductive key := KSym (m : Z) | KStr (m : Z) | KObj (n : Z).
Inductive val := VNil | VInt (z : Z) | VObj (n : Z) | VHash (h : list (key * val)).

(* ------------------------------------------------------------------ *)
(** ** new *)

(** The members, what keyword_init: was given as (None: nil or nothing), and
    whether the class of the new object is the one that Struct.new made (and
    not a subclass of it). *)
Record sclass := mkC { members : list Z; kwinit : option bool; direct : bool }.

Definition is_member (ms : list Z) (m : Z) : bool := existsb (Z.eqb m) ms.

(** hash.get of a Symbol, nil if it is not there. *)
Definition get (h : list (key * val)) (m : Z) : val :=
  match find (fun e => match fst e with KSym k => k =? m | _ => false end) h with
  | Some (_, v) => v
  | None => VNil
  end.

(** Missing values are nil. *)
Definition pad (n : nat) (vs : list val) : list val := vs ++ repeat VNil (n - length vs).

(** is_keyword_init, struct_class.rs:439-452: the setting of the class itself. *)
Definition is_keyword_init (c : sclass) : bool :=
  direct c && match kwinit c with Some b => b | None => false end.

Definition known_sym (ms : list Z) (k : key) : bool :=
  match k with KSym m => is_member ms m | _ => false end.
Definition unknown_sym (ms : list Z) (k : key) : bool :=
  match k with KSym m => negb (is_member ms m) | _ => false end.

(** initialize, struct_class.rs:293-435, with positional arguments and
    keywords. The slots. *)
Definition initialize (c : sclass) (pos : list val) (kw : list (key * val)) : res (list val) :=
  let ms := members c in
  let n := length ms in
  if is_keyword_init c then
    let from_hash h :=
      if forallb (fun e => known_sym ms (fst e)) h then Val (map (get h) ms) else Raise ArgErr in
    match pos, kw with
    | [], [] => Val (repeat VNil n)
    | [], _ => from_hash kw
    | [VHash h], [] => from_hash h
    | _, _ => Raise ArgErr
    end
  else
    match kw with
    | [] => if Nat.ltb n (length pos) then Raise ArgErr else Val (pad n pos)
    | _ =>
        match pos with
        | [] => if existsb (fun e => unknown_sym ms (fst e)) kw then Raise ArgErr else Val (map (get kw) ms)
        | _ => if Nat.ltb n (length pos + 1) then Raise ArgErr else Val (pad n (pos ++ [VHash kw]))
        end
    end.

(* ------------------------------------------------------------------ *)
(** ** Reading *)

(** An object: its members, its slots, readers that were redefined, and
    whether it is frozen. *)
Record obj := mkO { names : list Z; slots : list val; over : Z -> option (list val -> val); frozen : bool }.

Fixpoint place (m : Z) (ms : list Z) : nat :=
  match ms with [] => O | x :: r => if x =? m then O else S (place m r) end.

(** send(m) *)
Definition send (s : obj) (m : Z) : val :=
  match over s m with
  | Some f => f (slots s)
  | None => nth (place m (names s)) (slots s) VNil
  end.

(** size: a member of that name hides the method. *)
Definition size (s : obj) : val :=
  if is_member (names s) 0 then send s 0 else VInt (Z.of_nat (length (names s))).

(** The argument of [] *)
Inductive index := IInt (i : Z) | IFloat (i : Z) | IName (m : Z) | IObj.

(** i += size if i < 0, and the checks; struct.rb:61-67. *)
Definition checked (s : obj) (i : Z) : res Z :=
  match size s with
  | VInt n =>
      let j := if i <? 0 then i + n else i in
      if j <? 0 then Raise IndexErr else if n <=? j then Raise IndexErr else Val j
  | _ => if i <? 0 then Raise TypeErr else Raise ArgErr
  end.

(** members[i]; nil is no name. *)
Definition member_at (s : obj) (i : Z) : res Z :=
  match nth_error (names s) (Z.to_nat i) with Some m => Val m | None => Raise TypeErr end.

Definition bind {A B} (x : res A) (f : A -> res B) : res B :=
  match x with Val a => f a | Raise e => Raise e end.

Definition aref (s : obj) (k : index) : res val :=
  match k with
  | IInt i => bind (checked s i) (fun j => bind (member_at s j) (fun m => Val (send s m)))
  | IName m => if is_member (names s) m then Val (send s m) else Raise NameErr
  | IFloat _ | IObj => Raise TypeErr
  end.

Definition set_slot (s : obj) (m : Z) (v : val) : obj :=
  let n := place m (names s) in
  mkO (names s) (firstn n (slots s) ++ [v] ++ skipn (S n) (slots s)) (over s) (frozen s).

(** []=; the writers are not redefined. *)
Definition aset (s : obj) (k : index) (v : val) : res obj :=
  if frozen s then Raise FrozenErr
  else
    match k with
    | IInt i => bind (checked s i) (fun j => bind (member_at s j) (fun m => Val (set_slot s m v)))
    | IName m => if is_member (names s) m then Val (set_slot s m v) else Raise NameErr
    | IFloat _ | IObj => Raise TypeErr
    end.

Definition to_a (s : obj) : list val := map (send s) (names s).
Definition to_h (s : obj) : list (Z * val) := map (fun m => (m, send s m)) (names s).

(** values_at of one Range, struct.rb:98-109, for an object whose size is its
    number of members. *)
Definition upto (first last : Z) : list Z := map (fun i => first + Z.of_nat i) (seq 0 (Z.to_nat (last - first + 1))).
Definition values_range (s : obj) (b e : option Z) (excl : bool) : res (list val) :=
  let n := Z.of_nat (length (names s)) in
  let first := match b with None => 0 | Some b => b end in
  let last := match e with None => n - 1 | Some e => e end in
  let first := if first <? 0 then first + n else first in
  if first <? 0 then Raise RangeErr
  else
    let last := if last <? 0 then last + n else last in
    let last := if excl then last - 1 else last in
    Val (map (fun i => if i <? n then match nth_error (names s) (Z.to_nat i) with Some m => send s m | None => VNil end
                       else VNil) (upto first last)).
