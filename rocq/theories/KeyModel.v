(** Model of eql? and of the key digest.
    Source: /repo/monoruby/src/value.rs:347-475 (RubyHash for Value), :475-552
    (RubyEql), value/rvalue/array.rs:166-178, range.rs:23-45, hash.rs:1086-1153.

    - The digest is modelled by the sequence of items written to the hasher;
      equal sequences give equal digests whatever the hasher, and an injective
      hasher gives different digests for different sequences.
    - [same] is object identity (Value::id); the theorems only use that identical
      values have identical contents.
    - Containers keep their builtin #hash (store.rs:424 has_builtin_container_hash
      holds), and there are no cycles, so the recursion guards never fire.
    - Exhaustion of the structural recursion cannot happen: both functions are
      structural. *)
From Coq Require Import ZArith List Bool.
From Verif Require Import KeySpec.
Import ListNotations.
Open Scope Z_scope.

(** Items written to the hasher.  [IWord w] stands for whatever
    ruby_hash_packed (value.rs:347-384) writes for the word [w]; it is a function
    of the word alone. *)
Inductive item := IWord (w : Z) | IBig (n : Z) | IBits (b : Z) | IBytes (l : list Z) | IBool (b : bool) | IId (id : Z).

(** value.rs:386-473 Value::ruby_hash. *)
Fixpoint stream (v : kval) : list item :=
  match v with
  | Packed w => [IWord w]
  | Big n => [IBig n]
  | HFloat b => [IBits b]
  | Str l => [IBytes l]
  | Arr l => (fix go l := match l with [] => [] | x :: t => stream x ++ go t end) l
  | Rng a b e => stream a ++ stream b ++ [IBool e]
  | Hsh l => (fix go l := match l with [] => [] | (k, x) :: t => stream k ++ stream x ++ go t end) l
  | Obj i => [IId i]
  end.

(** IEEE equality of two bit patterns: NaN differs from everything, the zeros are equal. *)
Definition f_nan (b : Z) : bool := 0x7ff0000000000000 <? Z.land b 0x7fffffffffffffff.
Definition f_zero (b : Z) : bool := Z.land b 0x7fffffffffffffff =? 0.
Definition f_eq (a b : Z) : bool := negb (f_nan a) && negb (f_nan b) && ((a =? b) || (f_zero a && f_zero b)).
Fixpoint bytes_eq (a b : list Z) : bool :=
  match a, b with [], [] => true | x :: s, y :: t => (x =? y) && bytes_eq s t | _, _ => false end.

Section Eql.
Variable same : kval -> kval -> bool.   (* self.id() == other.id() *)
Variable dg : list item -> Z.           (* the hasher *)

(** value.rs:476-552; for Hash, hash.rs:1088-1112: sizes equal and every pair of
    the left found in the right (a look-up: digest first, then eql?). *)
Fixpoint eql (x y : kval) {struct x} : bool :=
  same x y ||
  match x, y with
  | Packed a, Packed b => a =? b
  | Big a, Big b => a =? b
  | HFloat a, HFloat b => f_eq a b
  | Str a, Str b => bytes_eq a b
  | Arr a, Arr b =>
      (fix go a b := match a, b with [], [] => true | u :: s, v :: t => eql u v && go s t | _, _ => false end) a b
  | Rng a b e, Rng a' b' e' => eql a a' && eql b b' && Bool.eqb e e'
  | Hsh a, Hsh b =>
      (Nat.eqb (length a) (length b)) &&
      (fix go a := match a with
        | [] => true
        | (k, u) :: t =>
            match find (fun p => (dg (stream k) =? dg (stream (fst p))) && eql k (fst p)) b with
            | Some p => eql u (snd p) && go t
            | None => false
            end
        end) a
  | Obj a, Obj b => a =? b
  | _, _ => false
  end.

(** Look-up of [k] in a boxed Hash (rubymap get: digest, then eql?). *)
Definition lookup {V} (k : kval) (l : list (kval * V)) : option V :=
  option_map snd (find (fun p => (dg (stream k) =? dg (stream (fst p))) && eql k (fst p)) l).
End Eql.
