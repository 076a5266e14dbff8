(** Strings as values: every name has its own bytes and its own frozen flag. *)
From Coq Require Import ZArith List Bool Arith.
From Verif Require Import StrShareModel.
Import ListNotations.

Definition val : Type := (list Z * bool)%type.
Definition vals : Type := list (option val).
Fixpoint vset (s : vals) (n : nat) (v : val) : vals :=
  match s, n with
  | [], _ => []
  | _ :: r, O => Some v :: r
  | x :: r, S k => x :: vset r k v
  end.
Fixpoint kill (n : nat) (s : vals) (keep : list nat) : vals :=
  match s with [] => [] | v :: r => (if existsb (Nat.eqb n) keep then v else None) :: kill (S n) r keep end.
Definition sstep (s : vals) (o : op) : vals :=
  let at_ n := nth n s None in
  match o with
  | ONew b _ => s ++ [Some (b, false)]
  | OSub n i e => match at_ n with
                  | Some (b, _) => if (i <=? e) && (e <=? length b) then s ++ [Some (firstn (e - i) (skipn i b), false)] else s
                  | None => s end
  | OSnap n => match at_ n with Some (b, _) => s ++ [Some (b, true)] | None => s end
  | ODup n fr => match at_ n with Some (b, _) => s ++ [Some (b, fr)] | None => s end
  | OShare _ => s
  | OMut n f _ => match at_ n with Some (b, false) => vset s n (f b, false) | _ => s end
  | OReplace n k => match at_ n, at_ k with Some (_, false), Some (b, _) => vset s n (b, false) | _, _ => s end
  | OFreeze n => match at_ n with Some (b, _) => vset s n (b, true) | None => s end
  | OGc keep => kill 0 s keep
  | ORead n b => match at_ n with Some (_, fr) => vset s n (b, fr) | None => s end
  | OCall _ _ => s
  end.
Fixpoint srun (s : vals) (l : list op) : vals := match l with [] => s | o :: r => srun (sstep s o) r end.
(** No frozen string is given new content, or a new buffer for a C function. *)
Fixpoint respects (s : vals) (l : list op) : Prop :=
  match l with
  | [] => True
  | o :: r => match o with ORead n _ | OCall n _ => match nth n s None with Some (_, true) => False | _ => True end | _ => True end
              /\ respects (sstep s o) r
  end.
