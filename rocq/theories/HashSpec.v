(** What a Ruby programmer expects of one Hash object, with no mention of how it
    is stored: pairs in insertion order, a comparison mode, a default, and for
    every iteration in progress the keys it has still to visit. *)
From Coq Require Import List Bool Arith NArith.
From Verif Require Import MapSpec.
Import ListNotations.

Inductive hop (K V D : Type) :=
| Fetch (k : K)                       (* h.fetch(k) / h[k] without default *)
| HasKey (k : K) | Store (k : K) (v : V) | Delete (k : K) | Shift | Clear
| ById                                (* compare_by_identity *)
| SetDefault (d : option D) | GetDefault | IsById | Size | ToA
| Begin                               (* an each-style iteration starts *)
| Next (i : nat)                      (* the i-th newest active iteration advances *)
| End (i : nat)                       (* it ends, normally or by break/raise *)
| Dup                                 (* continue with h.dup *)
| ReplaceWith (l : list (K * V)) (ident : bool).  (* h.replace(other) *)
Arguments Fetch {K V D}. Arguments HasKey {K V D}. Arguments Store {K V D}. Arguments Delete {K V D}.
Arguments Shift {K V D}. Arguments Clear {K V D}. Arguments ById {K V D}. Arguments SetDefault {K V D}.
Arguments GetDefault {K V D}. Arguments IsById {K V D}. Arguments Size {K V D}. Arguments ToA {K V D}.
Arguments Begin {K V D}. Arguments Next {K V D}. Arguments End {K V D}. Arguments Dup {K V D}.
Arguments ReplaceWith {K V D}.

Inductive hres (K V D : Type) :=
| RUnit | RRaise | RVal (o : option V) | RBool (b : bool) | RPair (o : option (K * V))
| RNat (n : nat) | RList (l : list (K * V)) | RDef (d : option D).
Arguments RUnit {K V D}. Arguments RRaise {K V D}. Arguments RVal {K V D}. Arguments RBool {K V D}.
Arguments RPair {K V D}. Arguments RNat {K V D}. Arguments RList {K V D}. Arguments RDef {K V D}.

Section S.
Context {K V D : Type} (eql same : K -> K -> bool).

Record hst := HS { h_ents : list (K * V); h_ident : bool; h_dflt : option D; h_iters : list (list K) }.
Definition empty_hash : hst := HS [] false None [].

(** Key comparison in force. *)
Definition mode (id : bool) : K -> K -> bool := if id then same else eql.
Definition forget (id : bool) (k : K) : list K -> list K := filter (fun k' => negb (mode id k k')).

Fixpoint remove_at {A} (i : nat) (l : list A) : list A :=
  match l, i with
  | [], _ => []
  | _ :: l', O => l'
  | x :: l', S i' => x :: remove_at i' l'
  end.
Fixpoint replace_at {A} (i : nat) (y : A) (l : list A) : list A :=
  match l, i with
  | [], _ => []
  | _ :: l', O => y :: l'
  | x :: l', S i' => x :: replace_at i' y l'
  end.

Definition hspec (o : hop K V D) (s : hst) : hst * hres K V D :=
  let '(HS l id d its) := s in
  let e := mode id in
  let busy := match its with [] => false | _ => true end in
  let found k := option_map snd (s_get e k l) in
  let present k := match s_get e k l with Some _ => true | None => false end in
  match o with
  | Fetch k => (s, RVal (found k))
  | HasKey k => (s, RBool (present k))
  | Store k v =>
      if busy && negb (present k) then (s, RRaise)
      else (HS (s_put e k v l) id d its, RUnit)
  | Delete k => (HS (s_delete e k l) id d (map (forget id k) its), RVal (found k))
  | Shift =>
      match l with
      | [] => (s, RPair None)
      | p :: l' => (HS l' id d (map (forget id (fst p)) its), RPair (Some p))
      end
  | Clear => if busy then (s, RRaise) else (HS [] id d its, RUnit)
  | ById => if busy then (s, RRaise) else (HS l true d its, RUnit)
  | SetDefault d' => (HS l id d' its, RUnit)
  | GetDefault => (s, RDef d)
  | IsById => (s, RBool id)
  | Size => (s, RNat (length l))
  | ToA => (s, RList l)
  | Begin => (HS l id d (map fst l :: its), RUnit)
  | Next i =>
      match nth_error its i with
      | Some (k :: ks) => (HS l id d (replace_at i ks its), RPair (s_get e k l))
      | _ => (s, RPair None)
      end
  | End i => (HS l id d (remove_at i its), RUnit)
  | Dup => (HS l id d [], RUnit)
  | ReplaceWith l' id' =>
      if busy then (s, RRaise)
      else (HS (fold_left (fun acc p => s_put (mode id') (fst p) (snd p) acc) l' []) id' None its, RUnit)
  end.

Fixpoint hspec_run (os : list (hop K V D)) (s : hst) : hst * list (hres K V D) :=
  match os with
  | [] => (s, [])
  | o :: os' => let (s1, x) := hspec o s in let (s2, xs) := hspec_run os' s1 in (s2, x :: xs)
  end.

(** Histories covered by the positive theorem: iterations end newest first, or
    in any order while at most three are active; Hash#replace is not called
    inside an iteration; fewer than 2^32-1 iterations are active. *)
Definition covered (o : hop K V D) (s : hst) : Prop :=
  match o with
  | End i => i < length (h_iters s) /\ (i = 0 \/ length (h_iters s) <= 3)
  | Next i => i < length (h_iters s)
  | Begin => (N.of_nat (length (h_iters s)) < 4294967295)%N
  | ReplaceWith _ _ => h_iters s = []
  | _ => True
  end.
Fixpoint all_covered (os : list (hop K V D)) (s : hst) : Prop :=
  match os with [] => True | o :: os' => covered o s /\ all_covered os' (fst (hspec o s)) end.
End S.
Arguments HS {K V D}. Arguments hst : clear implicits. Arguments empty_hash {K V D}.

(** Number of iterations in progress after a history, counted from the calls
    alone. *)
Definition running {K V D} (os : list (hop K V D)) : nat :=
  fold_left (fun n o => match o with Begin => S n | End _ => n - 1 | Dup => 0 | _ => n end) os 0.

(** Sample keys: small integers (immediates) and strings (object id, content). *)
Inductive skey := Imm (n : nat) | Str (id content : nat).
Definition s_packed (a : skey) : bool := match a with Imm _ => true | _ => false end.
Definition s_eql (a b : skey) : bool :=
  match a, b with
  | Imm m, Imm n => Nat.eqb m n
  | Str _ c, Str _ d => Nat.eqb c d
  | _, _ => false
  end.
Definition s_same (a b : skey) : bool :=
  match a, b with
  | Imm m, Imm n => Nat.eqb m n
  | Str i c, Str j d => Nat.eqb i j && Nat.eqb c d
  | _, _ => false
  end.
(** What is asked of key comparison and digests: equality and identity are
    equivalences, identical keys are equal, an immediate equals only itself, and
    equal keys have equal digests. *)
Record good_keys {K : Type} (packed : K -> bool) (eql same : K -> K -> bool) {H : Type} (hv hi : K -> H) : Prop := {
  eql_refl : forall x, eql x x = true;
  eql_sym : forall x y, eql x y = eql y x;
  eql_trans : forall x y z, eql x y = true -> eql y z = true -> eql x z = true;
  same_refl : forall x, same x x = true;
  same_sym : forall x y, same x y = same y x;
  same_trans : forall x y z, same x y = true -> same y z = true -> same x z = true;
  same_eql : forall x y, same x y = true -> eql x y = true;
  packed_eql : forall x y, packed x = true -> eql x y = same x y;
  packed_same : forall x y, packed x = true -> same x y = true -> packed y = true;
  hv_eql : forall x y, eql x y = true -> hv x = hv y;
  hi_same : forall x y, same x y = true -> hi x = hi y }.
