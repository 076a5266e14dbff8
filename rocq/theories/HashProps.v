(** Property theorems C10 and C11 (the Hash object). *)
From Coq Require Import ZArith List Bool Arith NArith Permutation.
From Verif Require Import MapSpec MapModel HashSpec HashModel HashProofs.
Import ListNotations.

(** C10: whatever the keys, digests, probing order and growth policy, and for
    every history of stores, look-ups, deletions, shifts, clears, mode changes,
    default changes, copies and replacements (and iterations, see [covered]):
    nothing panics and every call answers what the representation-free
    specification answers. *)
Theorem C10_representation_independent : forall (K V D : Type) (packed : K -> bool) (eql same : K -> K -> bool)
    (hv hi : K -> Z) (vis : Z -> Z -> bool) (ins : list (Z * nat) -> Z * nat -> list (Z * nat))
    (grow : nat -> nat) (nilv : V),
  good_keys packed eql same hv hi ->
  (forall h, vis h h = true) -> (forall l x, Permutation (ins l x) (x :: l)) -> (forall n, n <= grow n) ->
  forall os : list (hop K V D), all_covered eql same os empty_hash ->
  exists ms, hrun packed eql same hv hi vis ins grow nilv os (h_new, [])
               = Some (ms, snd (hspec_run eql same os empty_hash))
    /\ lives (raw (bd (fst ms))) = h_ents (fst (hspec_run eql same os empty_hash)).
Proof. exact hash_refines. Qed.
Print Assumptions C10_representation_independent.

(** Five keys (string keys with equal content included), deletion back below the
    inline limit, clear, identity mode. *)
Example C10_example :
  option_map snd (hrun (D:=nat) s_packed s_eql s_same (fun _ => 0%Z) (fun _ => 0%Z) (fun _ _ => true) (fun l x => x :: l) (fun n => 2 * n) 0
    [Store (Imm 1) 10; Store (Imm 2) 20; Store (Str 7 1) 30; Store (Str 8 1) 31; Size; Store (Imm 3) 40; Store (Imm 4) 50;
     Delete (Imm 2); Shift; ToA; Clear; Store (Imm 9) 1; ById; Store (Str 7 1) 2; Store (Str 8 1) 3; Size; Fetch (Str 9 1)]
    (h_new, []))
  = Some [RUnit; RUnit; RUnit; RUnit; RNat 3; RUnit; RUnit; RVal (Some 20); RPair (Some (Imm 1, 10));
          RList [(Str 7 1, 31); (Imm 3, 40); (Imm 4, 50)]; RUnit; RUnit; RUnit; RUnit; RUnit; RNat 3; RVal None]
  /\ good_keys s_packed s_eql s_same (fun _ => 0%Z) (fun _ => 0%Z).
Proof. exact (conj eq_refl good_nat). Qed.

(** C11, what holds: when iterations end newest first (or in any order while at
    most three run) and Hash#replace is not called inside one, then at any depth
    a new key is refused exactly while an iteration runs and leaves the hash
    unchanged, updates and deletions are accepted, and each iteration visits
    exactly the keys the specification says. *)
Theorem C11_iteration_partial : forall (K V D : Type) (packed : K -> bool) (eql same : K -> K -> bool)
    (hv hi : K -> Z) (vis : Z -> Z -> bool) (ins : list (Z * nat) -> Z * nat -> list (Z * nat))
    (grow : nat -> nat) (nilv : V),
  good_keys packed eql same hv hi ->
  (forall h, vis h h = true) -> (forall l x, Permutation (ins l x) (x :: l)) -> (forall n, n <= grow n) ->
  forall (os : list (hop K V D)) (k : K) (v : V), all_covered eql same os empty_hash ->
  exists ms ms' r, hrun packed eql same hv hi vis ins grow nilv os (h_new, [])
               = Some (ms, snd (hspec_run eql same os empty_hash))
    /\ hstep packed eql same hv hi vis ins grow nilv (Store k v) ms = Some (ms', r)
    /\ let was := lives (raw (bd (fst ms))) in
       let fresh := s_get (mode eql same (h_ident (fst (hspec_run eql same os empty_hash)))) k was = None in
       let now := lives (raw (bd (fst ms'))) in
       (0 < running os -> fresh -> r = RRaise /\ now = was) /\
       (running os = 0 \/ ~ fresh ->
          r = RUnit /\ now = s_put (mode eql same (h_ident (fst (hspec_run eql same os empty_hash)))) k v was).
Proof. exact store_while_iterating. Qed.
Print Assumptions C11_iteration_partial.

(** Five nested iterations over an inline hash, a deletion inside, then all end. *)
Example C11_example :
  let os : list (hop skey nat nat) :=
    [Store (Imm 1) 10; Store (Imm 2) 20; Begin; Begin; Begin; Begin; Begin; Next 4; Delete (Imm 2); Next 4; Next 0;
     Store (Imm 1) 11; End 0; End 0; End 0; End 0; End 0] in
  all_covered s_eql s_same os empty_hash /\ running os = 0 /\ running (firstn 12 os) = 5 /\
  option_map snd (hrun s_packed s_eql s_same (fun _ => 0%Z) (fun _ => 0%Z) (fun _ _ => true) (fun l x => x :: l) (fun n => 2 * n) 0
    (firstn 12 os ++ [Store (Imm 3) 1] ++ skipn 12 os ++ [Store (Imm 3) 1; ToA]) (h_new, []))
  = Some [RUnit; RUnit; RUnit; RUnit; RUnit; RUnit; RUnit; RPair (Some (Imm 1, 10)); RVal (Some 20); RPair None;
          RPair (Some (Imm 1, 10)); RUnit; RRaise; RUnit; RUnit; RUnit; RUnit; RUnit; RUnit; RList [(Imm 1, 11); (Imm 3, 1)]].
Proof. vm_compute. repeat split; auto 10. Qed.

(** C11 as stated is false, both ways.
    First: [h = {1=>1}; h.each { h.replace({1=>1,2=>2,3=>3,4=>4}) }] ends, and
    every later insertion of a new key is refused. *)
Theorem C11_stuck_refuted :
  ~ (forall (os : list (hop skey nat nat)) (k : skey) (v : nat) rs, running os = 0 ->
     option_map snd (hrun s_packed s_eql s_same (fun _ => 0%Z) (fun _ => 0%Z) (fun _ _ => true) (fun l x => x :: l) (fun n => 2 * n) 0
       (os ++ [Store k v]) (h_new, [])) = Some (rs ++ [RRaise]) -> False).
Proof. exact stuck. Qed.
Print Assumptions C11_stuck_refuted.

(** Second: four iterations over a small hash (external enumerators), the three
    older ones finish first; a new key is then accepted although the fourth
    iteration runs, and that iteration visits it. *)
Theorem C11_unprotected_refuted :
  ~ (forall (os : list (hop skey nat nat)) (k : skey) (v : nat) rs, 0 < running os ->
     option_map snd (hrun s_packed s_eql s_same (fun _ => 0%Z) (fun _ => 0%Z) (fun _ _ => true) (fun l x => x :: l) (fun n => 2 * n) 0
       (os ++ [HasKey k; Store k v; Next 0; Next 0]) (h_new, []))
       = Some (rs ++ [RBool false; RUnit; RPair (Some (Imm 1, 1)); RPair (Some (k, v))]) -> False).
Proof. exact unprotected. Qed.
Print Assumptions C11_unprotected_refuted.
