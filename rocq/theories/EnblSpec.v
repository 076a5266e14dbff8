(** What Ruby's Enumerable and Comparable methods mean. *)
From Coq Require Import ZArith List Bool Lia Floats.SpecFloat.
From Verif Require Import IntModel AseqModel FintModel EnblModel.
Import ListNotations.
Local Open Scope Z_scope.

(** l in slices of n elements, the last one possibly shorter but not empty. *)
Inductive sliced {A} (n : nat) : list A -> list (list A) -> Prop :=
| sliced_nil : sliced n [] []
| sliced_last s : s <> [] -> (length s < n)%nat -> sliced n s [s]
| sliced_more s l o : length s = n -> sliced n l o -> sliced n (s ++ l) (s :: o).

(** The windows of n elements, from left to right. *)
Definition windows {A} (n : nat) (l : list A) : list (list A) :=
  map (fun i => firstn n (skipn i l)) (seq 0 (S (length l) - n)).

(** The longest start of l whose elements satisfy p, and the rest. *)
Fixpoint span {A} (p : A -> bool) (l : list A) : list A * list A :=
  match l with
  | [] => ([], [])
  | x :: r => if p x then let '(a, b) := span p r in (x :: a, b) else ([], l)
  end.

(** Chunks: runs of elements with the same key; separators vanish, alone
    elements are chunks of their own. The fuel is a bound on the length. *)
Fixpoint chunks {A K} (keq : K -> K -> bool) (key : A -> ckey K) (fuel : nat) (l : list A)
  : list (option K * list A) :=
  match fuel, l with
  | S f, x :: r =>
      match key x with
      | KReserved => []
      | KSep => chunks keq key f r
      | KAlone => (None, [x]) :: chunks keq key f r
      | KKey k =>
          let '(a, b) := span (fun y => match key y with KKey k' => keq k' k | _ => false end) r in
          (Some k, x :: a) :: chunks keq key f b
      end
  | _, _ => []
  end.

(** Slices of l that are cut exactly between the neighbours for which [cut]
    holds. *)
Inductive cuts {A} (cut : A -> A -> bool) : list A -> list (list A) -> Prop :=
| cuts_one x : cuts cut [x] [[x]]
| cuts_new x y l o : cut x y = true -> cuts cut (y :: l) o -> cuts cut (x :: y :: l) ([x] :: o)
| cuts_on x y l s o : cut x y = false -> cuts cut (y :: l) (s :: o) ->
    cuts cut (x :: y :: l) ((x :: s) :: o).

(** The elements of a list but the last one. *)
Definition butlast {A} (l : list A) : list A := firstn (length l - 1) l.

(** Slices that begin where p holds, and only there. *)
Definition before {A} (p : A -> bool) (l : list A) (o : list (list A)) : Prop :=
  concat o = l /\ Forall (fun s => s <> []) o /\
  Forall (fun s => Forall (fun x => p x = false) (tl s)) o /\
  Forall (fun s => exists x r, s = x :: r /\ p x = true) (tl o).

(** Slices that end where p holds, and only there. *)
Definition after {A} (p : A -> bool) (l : list A) (o : list (list A)) : Prop :=
  concat o = l /\ Forall (fun s => s <> []) o /\
  Forall (fun s => Forall (fun x => p x = false) (butlast s)) o /\
  Forall (fun s => exists x r, s = r ++ [x] /\ p x = true) (butlast o).

Definition pred_of {A} (b : bound A) : A -> bool :=
  match b with Block f => f | Pattern f => f | NilPattern f => f end.

(** An equality test. *)
Definition decides {K} (keq : K -> K -> bool) : Prop := forall a b, keq a b = true <-> a = b.

(** A comparison that orders by rank. *)
Definition ranked {K} (cmp : K -> K -> option Z) (rank : K -> Z) : Prop :=
  forall a b, exists z, cmp a b = Some z /\
    (z < 0 <-> rank a < rank b) /\ (0 < z <-> rank b < rank a).

(** The first of the elements with the least (greatest) rank. *)
Definition least {A} (rank : A -> Z) (l : list A) (m : A) : Prop :=
  (forall x, In x l -> rank m <= rank x) /\ find (fun x => rank x =? rank m) l = Some m.
Definition greatest {A} (rank : A -> Z) (l : list A) (m : A) : Prop :=
  (forall x, In x l -> rank x <= rank m) /\ find (fun x => rank x =? rank m) l = Some m.

(** The i-th element of what is zipped with, nil past the end. *)
Definition ith {A} (i : nat) (s : source A) : option A :=
  match s with Finite l => nth_error l i | Endless f => Some (f i) end.

(** The rows of zip. *)
Definition rows {A} (l : list A) (os : list (source A)) : list (list (option A)) :=
  map (fun i => nth_error l i :: map (ith i) os) (seq 0 (length l)).

(** Ruby's Comparable#== rescues nothing, and != is its negation. *)
Definition ruby_eq (same : bool) (c : cres) : res bool :=
  if same then Val true
  else match c with
       | CRaise e => Raise e
       | CNil => Val false
       | CNum z => Val (z =? 0)
       | COther => Raise ArgErr
       end.
Definition ruby_ne (same : bool) (c : cres) : res bool :=
  match ruby_eq same c with Val b => Val (negb b) | r => r end.

(** The number of slices of n elements. *)
Definition slice_count (n : Z) (s : size) : size :=
  match s with Count k => Count ((k + n - 1) / n) | Infinity => Infinity end.

(** Elements of a list, in its order. *)
Inductive sub {A} : list A -> list A -> Prop :=
| sub_nil : sub [] []
| sub_skip x a b : sub a b -> sub a (x :: b)
| sub_keep x a b : sub a b -> sub (x :: a) (x :: b).

(** Ruby's sum of Floats: Kahan and Babuska's, where the part that is lost is
    the one of the smaller number, and what is not finite is kept apart. *)
Definition kb_add (s : spec_float * spec_float) (x : spec_float) : spec_float * spec_float :=
  let '(f, c) := s in
  match f, x with
  | S754_nan, _ => s
  | _, S754_nan => (S754_nan, c)
  | S754_infinity a, S754_infinity b => if Bool.eqb a b then s else (S754_nan, c)
  | _, S754_infinity _ => (x, c)
  | S754_infinity _, _ => s
  | _, _ =>
      let t := f_add f x in
      if SFleb (SFabs x) (SFabs f)
      then (t, f_add c (f_add (f_sub f t) x))
      else (t, f_add c (f_add (f_sub x t) f))
  end.
Definition kb_sum (l : list spec_float) : spec_float :=
  let '(f, c) := fold_left kb_add l (f_zero, f_zero) in f_add f c.

(** Ruby's between?: the receiver is compared with both bounds; without an
    order it raises ArgumentError. *)
Definition ruby_between {A} (cmp : A -> A -> option Z) (self lo hi : A) : res bool :=
  match cmp self lo with
  | None => Raise ArgErr
  | Some c =>
      if c <? 0 then Val false
      else match cmp self hi with None => Raise ArgErr | Some c => Val (c <=? 0) end
  end.
