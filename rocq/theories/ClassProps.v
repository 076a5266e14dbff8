(** C40, C58, C59: include and prepend. *)
From Coq Require Import ZArith List Bool.
From Verif Require Import ClassModel ClassSpec ClassProofs ClassStepProofs ClassWeaveProofs ClassIncludeProofs ClassFrontProofs ClassPrependProofs ClassBadProofs.
Import ListNotations.
Open Scope Z_scope.

(** Whatever happened before, an include keeps the relative order of the ancestors
    of every class and module. *)
Theorem C40_order_kept : forall s c m s' d, reachable s -> step s (Include c m) = State s' -> defined s d = true ->
  subseq (ancestors s d) (ancestors s' d).
Proof. exact (fun s c m s' d r => include_order s c m s' d (reach_inv s r)). Qed.

(** Afterwards everything the module has among its ancestors is an ancestor of the
    class; for any receiver it is on the chain that lookup follows. *)
Theorem C40_ancestors_partial : forall s c m s', reachable s -> step s (Include c m) = State s' ->
  is_class (hp s) (head s c) = true -> incl (ancestors s m) (ancestors s' c).
Proof. exact (fun s c m s' r => include_class s c m s' (reach_inv s r)). Qed.
Theorem C40_reaches : forall s c m s' x, reachable s -> step s (Include c m) = State s' -> In x (ancestors s m) ->
  In x (lineage (hp s') (head s c)).
Proof. exact (fun s c m s' x r => include_all s c m s' x (reach_inv s r)). Qed.

(** It puts nothing into the ancestors that is there already. *)
Theorem C40_nodup : forall s c m s', reachable s -> step s (Include c m) = State s' -> NoDup (ancestors s c) -> NoDup (ancestors s' c).
Proof. exact (fun s c m s' r => include_nodup s c m s' (reach_inv s r)). Qed.

(** Including again changes nothing at all. *)
Theorem C40_idempotent : forall s c m s', reachable s -> step s (Include c m) = State s' -> step s' (Include c m) = State s'.
Proof. exact (fun s c m s' r => include_again s c m s' (reach_inv s r)). Qed.

(** It raises exactly for a cycle. *)
Theorem C40_cyclic : forall s c m, reachable s -> defined s c = true -> defined s m = true -> is_plain_module (hp s) (head s m) = true ->
  (exists s', step s (Include c m) = Raised s') <-> In c (ancestors s m).
Proof. exact (fun s c m r => include_raises s c m (reach_inv s r)). Qed.

(** The exact result, when the ancestors of the module that the receiver does not
    have come before those it has: they are put right behind the class, the class
    keeps its order, and no class or module without [c] among its ancestors is
    affected, the superclass in particular. *)
Theorem C40_result_partial : forall s c m s' a b, reachable s -> step s (Include c m) = State s' ->
  ancestors s m = a ++ b -> NoDup a -> (forall i, In i a -> ~ In i (lineage (hp s) (head s c))) -> incl b (lineage (hp s) (head s c)) ->
  norg (at_ (hp s) (head s c)) = None -> exists t, ancestors s c = c :: t /\ ancestors s' c = c :: a ++ t.
Proof. exact (fun s c m s' a b r => front_result s c m s' a b (reach_inv s r)). Qed.
Theorem C40_others_partial : forall s c m s' a b, reachable s -> step s (Include c m) = State s' ->
  ancestors s m = a ++ b -> NoDup a -> (forall i, In i a -> ~ In i (lineage (hp s) (head s c))) -> incl b (lineage (hp s) (head s c)) ->
  forall d, defined s d = true -> d <> c -> ~ In c (ancestors s d) -> ancestors s' d = ancestors s d.
Proof. exact (fun s c m s' a b r => front_frame s c m s' a b (reach_inv s r)). Qed.

(** A module without repeated ancestors is included or the cycle is reported; and
    the walk always comes to an end. *)
Theorem C40_no_panic_partial : forall s c m, reachable s -> defined s c = true -> defined s m = true -> is_plain_module (hp s) (head s m) = true ->
  NoDup (ancestors s m) -> (exists s', step s (Include c m) = State s') \/ step s (Include c m) = Raised s.
Proof. exact (fun s c m r => include_total s c m (reach_inv s r)). Qed.
Theorem C40_terminates : forall s c m, reachable s -> step s (Include c m) <> NoFuel.
Proof. exact (fun s c m r => include_no_fuel s c m (reach_inv s r)). Qed.

(** Not so: the order of the module's own ancestors ([M] has [A] before [B], the
    class gets [B] before [A]). *)
Theorem C40_order_refuted : exists s c m s', reachable s /\ step s (Include c m) = State s' /\ NoDup (ancestors s m) /\
  NoDup (ancestors s' c) /\ ~ subseq (ancestors s m) (ancestors s' c).
Proof. exact bad_order. Qed.
(** Not so: a module included into a class with prepended modules comes before the
    class, and so overrides its methods. *)
Theorem C40_position_refuted : exists s c m s', reachable s /\ step s (Include c m) = State s' /\ ~ In m (ancestors s c) /\
  subseq [m; c] (ancestors s' c) /\ NoDup (ancestors s' c).
Proof. exact bad_position. Qed.
(** Not so: only the class and its descendants change (the superclass gets a module). *)
Theorem C40_superclass_refuted : exists s c m s' d, reachable s /\ step s (Include c m) = State s' /\ defined s d = true /\
  d <> c /\ ~ In c (ancestors s d) /\ In d (ancestors s c) /\ ancestors s' d <> ancestors s d.
Proof. exact bad_superclass. Qed.
(** Not so: a module that includes one that Object has got does not show it, and
    does not pass it on to a class outside Object. *)
Theorem C40_object_refuted : exists s c m s' s'' d, reachable s /\ step s (Include c m) = State s' /\ ~ In m (ancestors s' c) /\
  step s' (Include d c) = State s'' /\ In c (ancestors s'' d) /\ ~ In m (ancestors s'' d).
Proof. exact bad_object. Qed.
(** Not so: include never crashes the process. *)
Theorem C40_panic_refuted : exists s c m, reachable s /\ step s (Include c m) = Crashed.
Proof. exact bad_panic. Qed.

(** * Prepend *)
Theorem C58_order_kept : forall s c m s' d, reachable s -> step s (Prepend c m) = State s' -> defined s d = true ->
  subseq (ancestors s d) (ancestors s' d).
Proof. exact (fun s c m s' d r => prepend_keeps s c m s' d (reach_inv s r)). Qed.
(** A module without repeated ancestors is woven into what is in front of the
    receiver; behind it nothing changes. *)
Theorem C58_result_partial : forall s c m, reachable s -> defined s c = true -> defined s m = true -> is_plain_module (hp s) (head s m) = true ->
  NoDup (ancestors s m) -> ~ In c (ancestors s m) -> exists f r s', ancestors s c = f ++ c :: r /\ step s (Prepend c m) = State s' /\
  exists f', weave [] f (ancestors s m) = Some f' /\ ancestors s' c = f' ++ c :: r.
Proof. exact (fun s c m r => prepend_result s c m (reach_inv s r)). Qed.
(** What weaving means: the old order is kept, all modules are there, nothing is
    put there twice, nothing else, again changes nothing, and new modules come
    first. *)
Theorem C58_weave : forall f n f', weave [] f n = Some f' -> subseq f f' /\ incl n f' /\ incl f' (f ++ n) /\
  (NoDup f -> NoDup f') /\ weave [] f' n = Some f' /\
  (forall a b, n = a ++ b -> (forall x, In x a -> ~ In x f) -> NoDup a -> incl b f -> f' = a ++ f).
Proof. exact weave_facts. Qed.
(** A module prepended to a module reaches the classes that include it. *)
Theorem C58_reaches_partial : forall s c m s' d, reachable s -> step s (Prepend c m) = State s' -> is_plain_module (hp s) (head s c) = true ->
  defined s d = true -> is_class (hp s) (head s d) = true -> nsing (at_ (hp s) (head s d)) = false -> norg (at_ (hp s) (head s d)) = None ->
  In c (ancestors s d) -> subseq [m; c] (ancestors s' d).
Proof. exact (fun s c m s' d r => prepend_reaches s c m s' d (reach_inv s r)). Qed.
(** Not so: when the class has prepended modules itself; for singleton classes; for
    the ancestors of the prepended module. *)
Theorem C58_reaches_refuted : exists s c m s' d, reachable s /\ step s (Prepend c m) = State s' /\ is_plain_module (hp s) (head s c) = true /\
  is_class (hp s) (head s d) = true /\ nsing (at_ (hp s) (head s d)) = false /\ In c (ancestors s d) /\ ~ In m (ancestors s' d).
Proof. exact bad_reach. Qed.
Theorem C58_singleton_refuted : exists s c m s' d, reachable s /\ step s (Prepend c m) = State s' /\ is_plain_module (hp s) (head s c) = true /\
  is_class (hp s) (head s d) = true /\ norg (at_ (hp s) (head s d)) = None /\ In c (ancestors s d) /\ ~ In m (ancestors s' d).
Proof. exact bad_singleton. Qed.
Theorem C58_mixed_refuted : exists s c m s' d x, reachable s /\ step s (Prepend c m) = State s' /\ is_plain_module (hp s) (head s c) = true /\
  is_class (hp s) (head s d) = true /\ In c (ancestors s d) /\ In x (ancestors s m) /\ In x (ancestors s' c) /\ ~ In x (ancestors s' d).
Proof. exact bad_mixed. Qed.
(** Not so: everything a prepended module brings comes before the class. *)
Theorem C58_front_refuted : exists s c m s' x, reachable s /\ step s (Prepend c m) = State s' /\ In x (ancestors s m) /\
  ~ In x (ancestors s c) /\ subseq [c; x] (ancestors s' c) /\ NoDup (ancestors s' c).
Proof. exact bad_front. Qed.

(** * Include into an included module *)
Theorem C59_refuted : exists s c m s' d, reachable s /\ step s (Include c m) = State s' /\ is_class (hp s) (head s d) = true /\
  In c (ancestors s d) /\ In m (ancestors s' c) /\ ~ In m (ancestors s' d).
Proof. exact bad_later. Qed.
(** The other order works. *)
Theorem C59_before : forall s c m s' d s'', reachable s -> step s (Include c m) = State s' -> step s' (Include d c) = State s'' ->
  In m (ancestors s' c) -> is_class (hp s') (head s' d) = true -> In m (ancestors s'' d).
Proof. exact (fun s c m s' d s'' r e1 e2 hm k => include_class s' d c s'' (reach_inv s' (reach_step s _ s' r (or_introl e1))) e2 k m hm). Qed.

Example C40_example : exists s, reachable s /\ ancestors s 5 = [5; 4; 3; 1; 2; 0] /\ ancestors s 4 = [4; 3] /\
  step s (Include 3 4) = Raised s.
Proof. exact good_include. Qed.
Example C58_example : exists s, reachable s /\ ancestors s 5 = [4; 5; 3; 1; 2; 0] /\ ancestors s 6 = [6; 4; 5; 3; 1; 2; 0].
Proof. exact good_prepend. Qed.

Print Assumptions C40_order_kept.
Print Assumptions C40_ancestors_partial.
Print Assumptions C40_reaches.
Print Assumptions C40_nodup.
Print Assumptions C40_idempotent.
Print Assumptions C40_cyclic.
Print Assumptions C40_result_partial.
Print Assumptions C40_others_partial.
Print Assumptions C40_no_panic_partial.
Print Assumptions C40_terminates.
Print Assumptions C40_order_refuted.
Print Assumptions C40_position_refuted.
Print Assumptions C40_superclass_refuted.
Print Assumptions C40_object_refuted.
Print Assumptions C40_panic_refuted.
Print Assumptions C58_order_kept.
Print Assumptions C58_result_partial.
Print Assumptions C58_weave.
Print Assumptions C58_reaches_partial.
Print Assumptions C58_reaches_refuted.
Print Assumptions C58_singleton_refuted.
Print Assumptions C58_mixed_refuted.
Print Assumptions C58_front_refuted.
Print Assumptions C59_refuted.
Print Assumptions C59_before.
