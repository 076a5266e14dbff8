(** C133: Monitor. *)
From Coq Require Import ZArith List Bool.
From Verif Require Import MonModel MonSpec MonProofs.
Import ListNotations.
Local Open Scope Z_scope.

(** C133. A history of calls in which Ruby lets no thread wait does the same here. Missing: waiting (refuted below). *)
Theorem C133_uncontended_partial h s' xs : no_wait h -> ruby_run free h = Some (s', xs) ->
  fst (run free h) = s' /\ Forall2 agree xs (snd (run free h)).
Proof. exact (uncontended h s' xs). Qed.
Example C133_uncontended_example : run free [(0%nat, Enter); (0%nat, TryEnter); (1%nat, TryEnter); (1%nat, Exit); (0%nat, Exit); (0%nat, Exit); (1%nat, Enter); (1%nat, Owned); (0%nat, Owned); (0%nat, Locked)] = (mkM (Some 1%nat) 1, [Done; Answer true; Answer false; Error; Done; Done; Done; Answer true; Answer false; Answer true]) /\ ruby_run free [(0%nat, Enter); (1%nat, Enter)] = None.
Proof. repeat split; reflexivity. Qed.
Print Assumptions C133_uncontended_partial.

(** In such a history at most one thread is inside. Missing: contention (refuted below). *)
Theorem C133_exclusion_partial h s' xs t u : no_wait h -> ruby_run free h = Some (s', xs) ->
  inside t h -> inside u h -> t = u.
Proof. exact (exclusion h s' xs t u). Qed.
Example C133_exclusion_example : inside 0 [(0%nat, Enter); (0%nat, Enter); (0%nat, Exit)] /\ ~ inside 0 [(0%nat, Enter); (0%nat, Exit)].
Proof. split; [reflexivity|]. unfold inside. vm_compute. discriminate. Qed.
Print Assumptions C133_exclusion_partial.

(** Among threads that enter only by try_enter, at most one is inside, in all histories. *)
Theorem C133_try_exclusion h t u : no_wait h -> (forall t, ~ In (t, Enter) h) -> inside t h -> inside u h -> t = u.
Proof. exact (try_exclusion h t u). Qed.
Example C133_try_exclusion_example : snd (run free [(0%nat, TryEnter); (1%nat, TryEnter); (0%nat, Exit); (1%nat, TryEnter)]) = [Answer true; Answer false; Done; Answer true].
Proof. repeat split; reflexivity. Qed.
Print Assumptions C133_try_exclusion.

(** Nested synchronize blocks of one thread leave the monitor free and raise nothing. *)
Theorem C133_synchronize t h : blocks t h -> fst (run free h) = free /\ ~ In Error (snd (run free h)).
Proof. exact (synchronize_ok t h). Qed.
Example C133_synchronize_example : run free (sync 0 (sync 0 [(0%nat, Owned)] ++ [(0%nat, Locked)])) = (free, [Done; Done; Answer true; Done; Answer true; Done]).
Proof. repeat split; reflexivity. Qed.
Print Assumptions C133_synchronize.

(** False: enter does not wait for another thread, so two threads are inside. *)
Theorem C133_exclusion_refuted : ~ (forall h t u, no_wait h -> inside t h -> inside u h -> t = u).
Proof. exact (exclusion_bad). Qed.
Example C133_two_inside_example : run free [(0%nat, Enter); (1%nat, Enter)] = (mkM (Some 1%nat) 2, [Done; Done]).
Proof. repeat split; reflexivity. Qed.
Print Assumptions C133_exclusion_refuted.

(** False: when two synchronize blocks overlap, the end of the first raises ThreadError. *)
Theorem C133_exit_refuted : ~ (forall h t, blocks t (filter (fun e => Nat.eqb (fst e) t) h) ->
  forall u, blocks u (filter (fun e => Nat.eqb (fst e) u) h) ->
  (forall e, In e h -> fst e = t \/ fst e = u) -> ~ In Error (snd (run free h))).
Proof. exact (exit_bad). Qed.
Example C133_exit_example : snd (run free [(0%nat, Enter); (1%nat, Enter); (0%nat, Exit); (1%nat, Exit)]) = [Done; Done; Error; Done].
Proof. repeat split; reflexivity. Qed.
Print Assumptions C133_exit_refuted.

(** False: exit of a free monitor raises nothing. Ruby raises ThreadError. *)
Theorem C133_exit_free_refuted : ~ (forall s t s' x, fine s -> ruby_step s t Exit = Some (s', x) -> step s t Exit = (s', x)).
Proof. exact (exit_free_bad). Qed.
Example C133_exit_free_example : run free [(0%nat, Exit)] = (free, [Done]) /\ ruby_run free [(0%nat, Exit)] = Some (free, [Error]).
Proof. repeat split; reflexivity. Qed.
Print Assumptions C133_exit_free_refuted.

(** False: wait of a condition variable does not leave the monitor, so no other thread can change the condition. *)
Theorem C133_wait_refuted : ~ (forall s t s' x, fine s -> owns t s = true -> ruby_step s t Wait = Some (s', x) -> step s t Wait = (s', x)).
Proof. exact (wait_bad). Qed.
Example C133_wait_example : snd (run free [(0%nat, Enter); (0%nat, Wait); (1%nat, TryEnter)]) = [Done; Done; Answer false].
Proof. repeat split; reflexivity. Qed.
Print Assumptions C133_wait_refuted.
