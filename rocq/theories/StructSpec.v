(** Ruby's Struct. *)
From Coq Require Import ZArith List Bool.
From Verif Require Import StructModel.
Import ListNotations.
Local Open Scope Z_scope.

(** A key names a member as a Symbol or a String. *)
Definition names_member (m : Z) (k : key) : bool :=
  match k with KSym x | KStr x => x =? m | KObj _ => false end.
Definition named (h : list (key * val)) (m : Z) : val :=
  match find (fun e => names_member m (fst e)) h with Some (_, v) => v | None => VNil end.

(** Keywords fill members if keyword_init: is true, or if it is not given and
    there are only keywords; otherwise they are a last Hash. *)
Definition by_keywords (c : sclass) (pos : list val) (kw : list (key * val)) : bool :=
  match kwinit c with
  | Some b => b
  | None => match pos, kw with [], _ :: _ => true | _, _ => false end
  end.
Definition ruby_new (c : sclass) (pos : list val) (kw : list (key * val)) : res (list val) :=
  let ms := members c in
  let args := pos ++ match kw with [] => [] | _ => [VHash kw] end in
  match args with
  | [] => Val (repeat VNil (length ms))
  | _ =>
    if by_keywords c pos kw then
      match args with
      | [VHash h] =>
          if forallb (fun e => existsb (fun m => names_member m (fst e)) ms) h then Val (map (named h) ms)
          else Raise ArgErr
      | _ => Raise ArgErr
      end
    else if Nat.ltb (length ms) (length args) then Raise ArgErr else Val (pad (length ms) args)
  end.

Definition symbols (h : list (key * val)) : Prop := forall k v, In (k, v) h -> exists m, k = KSym m.
Definition symbol_args (pos : list val) (kw : list (key * val)) : Prop :=
  symbols kw /\ forall h, In (VHash h) pos -> symbols h.

(** Objects as Struct makes them. *)
Definition wf (s : obj) : Prop := NoDup (names s) /\ length (slots s) = length (names s).
(** Nothing of it is redefined or hidden. *)
Definition plain (s : obj) : Prop := (forall m, over s m = None) /\ ~ In 0 (names s).

(** An Integer, a name or an object that is no index. *)
Definition not_float (k : index) : Prop := match k with IFloat _ => False | _ => True end.

(** The place an index means. *)
Definition ruby_pos (s : obj) (k : index) : res nat :=
  let n := Z.of_nat (length (names s)) in
  match k with
  | IInt i | IFloat i =>
      if (- n <=? i) && (i <? n) then Val (Z.to_nat (if i <? 0 then i + n else i)) else Raise IndexErr
  | IName m => if is_member (names s) m then Val (place m (names s)) else Raise NameErr
  | IObj => Raise TypeErr
  end.
Definition ruby_aref (s : obj) (k : index) : res val := bind (ruby_pos s k) (fun p => Val (nth p (slots s) VNil)).
Fixpoint put {A} (n : nat) (v : A) (l : list A) : list A :=
  match n, l with O, _ :: r => v :: r | S n, x :: r => x :: put n v r | _, [] => [] end.
Definition ruby_aset (s : obj) (k : index) (v : val) : res (list val) :=
  bind (ruby_pos s k) (fun p => if frozen s then Raise FrozenErr else Val (put p v (slots s))).

(** values_at of a Range: the part of the slots, filled up with nil. *)
Definition ruby_range (s : obj) (b e : option Z) (excl : bool) : res (list val) :=
  let n := Z.of_nat (length (slots s)) in
  let first := match b with None => 0 | Some b => if b <? 0 then b + n else b end in
  if first <? 0 then Raise RangeErr
  else
    let stop := match e with
                | None => n
                | Some e => (if e <? 0 then e + n else e) + (if excl then 0 else 1)
                end in
    Val (firstn (Z.to_nat (stop - first)) (skipn (Z.to_nat first) (slots s) ++ repeat VNil (Z.to_nat (stop - Z.max n first)))).
