(** Programs that see the sharing, and frozen strings. *)
From Coq Require Import ZArith List Bool Arith Lia.
From Verif Require Import StrShareModel StrShareSpec StrShareProofs StrShareLeakProofs.
Import ListNotations.

(** A frozen name keeps its bytes. *)
Lemma sstep_frozen : forall (s : vals) o n b, nth n s None = Some (b, true) ->
  match o with ORead k _ | OCall k _ => match nth k s None with Some (_, true) => False | _ => True end | _ => True end ->
  nth n (sstep s o) None = Some (b, true) \/ nth n (sstep s o) None = None.
Proof.
  intros s o n b h hr.
  assert (hl : n < length s). { destruct (Nat.lt_ge_cases n (length s)); [assumption|]. rewrite nth_overflow in h by assumption. discriminate. }
  assert (happ : forall v, nth n (s ++ [v]) None = Some (b, true)) by (intros v; rewrite app_nth1 by exact hl; exact h).
  assert (hset : forall k v, nth k s None <> nth n s None -> nth n (vset s k v) None = Some (b, true)).
  { intros k v hk. rewrite vset_nth. destruct (Nat.eqb_spec n k) as [-> | _]; [congruence | exact h]. }
  destruct o as [x sp | k st e | k | k fr | k | k f g | k j | k | keep | k x | k gr]; cbn [sstep]; auto.
  - destruct (nth k s None) as [[x f]|]; [|auto]. destruct ((st <=? e) && (e <=? length x)); [left; apply happ | auto].
  - destruct (nth k s None) as [[x f]|]; [left; apply happ | auto].
  - destruct (nth k s None) as [[x f]|]; [left; apply happ | auto].
  - destruct (nth k s None) as [[x [|]]|] eqn:ek; auto. left. apply hset. rewrite ek, h. discriminate.
  - destruct (nth k s None) as [[x [|]]|] eqn:ek; auto. destruct (nth j s None) as [[y z]|]; [|auto]. left. apply hset. rewrite ek, h. discriminate.
  - destruct (nth k s None) as [[x f]|] eqn:ek; [|auto]. left. rewrite vset_nth.
    destruct (Nat.eqb_spec n k) as [-> | _]; [|exact h]. rewrite h in ek. injection ek as -> _.
    destruct (Nat.ltb_spec k (length s)); [reflexivity | lia].
  - rewrite kill_nth. destruct (existsb _ keep); auto.
  - destruct (nth k s None) as [[y [|]]|] eqn:ek; [destruct hr | | auto]. left. apply hset. rewrite ek, h. discriminate.
Qed.
Lemma srun_app : forall l1 l2 s, srun s (l1 ++ l2) = srun (srun s l1) l2.
Proof. induction l1 as [|o l1 IH]; intros l2 s; [reflexivity | apply IH]. Qed.
Lemma respects_app : forall l1 l2 s, respects s (l1 ++ l2) -> respects s l1 /\ respects (srun s l1) l2.
Proof.
  induction l1 as [|o l1 IH]; intros l2 s h; [split; [exact I | exact h]|]. destruct h as [h1 h2]. destruct (IH l2 _ h2) as [h3 h4].
  split; [split; assumption | exact h4].
Qed.
Lemma sstep_dead : forall (s : vals) o n, n < length s -> nth n s None = None -> nth n (sstep s o) None = None.
Proof.
  intros s o n hl h.
  assert (happ : forall v, nth n (s ++ [v]) None = None) by (intros v; rewrite app_nth1 by exact hl; exact h).
  assert (hset : forall k v w, nth k s None = Some w -> nth n (vset s k v) None = None).
  { intros k v w hk. rewrite vset_nth. destruct (Nat.eqb_spec n k) as [-> | _]; [congruence | exact h]. }
  destruct o as [x sp | k st e | k | k fr | k | k f g | k j | k | keep | k x | k gr]; cbn [sstep]; auto.
  - destruct (nth k s None) as [[x f]|]; [|auto]. destruct ((st <=? e) && (e <=? length x)); [apply happ | auto].
  - destruct (nth k s None) as [[x f]|]; [apply happ | auto].
  - destruct (nth k s None) as [[x f]|]; [apply happ | auto].
  - destruct (nth k s None) as [[x [|]]|] eqn:ek; eauto.
  - destruct (nth k s None) as [[x [|]]|] eqn:ek; auto. destruct (nth j s None) as [[y z]|]; eauto.
  - destruct (nth k s None) as [[x f]|] eqn:ek; eauto.
  - rewrite kill_nth. destruct (existsb _ keep); auto.
  - destruct (nth k s None) as [[y f]|] eqn:ek; eauto.
Qed.
Lemma sstep_len : forall (s : vals) o, length s <= length (sstep s o).
Proof.
  intros s o. destruct o as [x sp | k st e | k | k fr | k | k f g | k j | k | keep | k x | k gr]; cbn [sstep]; auto;
    try (destruct (nth k s None) as [[x' f']|]); auto;
    repeat first [ rewrite app_length; cbn; lia | rewrite vset_len; lia | rewrite kill_len; lia
                 | match goal with |- context [if ?c then _ else _] => destruct c end; auto
                 | match goal with |- context [match nth ?a ?b None with _ => _ end] => destruct (nth a b None) as [[? ?]|] end; auto ].
Qed.
Lemma srun_frozen : forall l (s : vals) n b, nth n s None = Some (b, true) -> respects s l ->
  nth n (srun s l) None = Some (b, true) \/ nth n (srun s l) None = None.
Proof.
  assert (D : forall l (s : vals) n, n < length s -> nth n s None = None -> nth n (srun s l) None = None).
  { induction l as [|o l IH]; intros s n hl h; [exact h|]. cbn. apply IH; [pose proof (sstep_len s o); lia | apply sstep_dead; assumption]. }
  induction l as [|o l IH]; intros s n b h hr; [left; exact h|]. destruct hr as [h1 h2]. cbn.
  destruct (sstep_frozen s o n b h h1) as [q | q]; [exact (IH _ n b q h2)|]. right. apply D; [|exact q].
  destruct (Nat.lt_ge_cases n (length s)) as [hl | hl]; [pose proof (sstep_len s o); lia|]. rewrite nth_overflow in h by exact hl. discriminate.
Qed.
Lemma frozen_stays : forall l1 l2 m1 n b, respects [] (l1 ++ l2) -> run empty_mem l1 = Some m1 -> nth n (seen m1) None = Some (Some (b, true)) ->
  exists m2, run m1 l2 = Some m2 /\ (nth n (seen m2) None = Some (Some (b, true)) \/ nth n (seen m2) None = Some None).
Proof.
  intros l1 l2 m1 n b hr e1 hn. destruct (respects_app l1 l2 [] hr) as [r1 r2].
  destruct (run_inv l1 empty_mem [] empty_inv r1) as [m [e hi]]. rewrite e1 in e. injection e as <-.
  destruct (run_inv l2 m1 _ hi r2) as [m2 [e2 hi2]]. exists m2. split; [exact e2|].
  rewrite (inv_seen m1 _ hi) in hn. rewrite (inv_seen m2 _ hi2).
  assert (hl : n < length (srun [] l1)).
  { destruct (Nat.lt_ge_cases n (length (srun [] l1))) as [q | q]; [exact q|]. rewrite nth_overflow in hn by (rewrite map_length; exact q). discriminate. }
  assert (hs : forall s : vals, n < length s -> nth n (map Some s) None = Some (nth n s None)).
  { intros s hs. rewrite (nth_indep _ None (Some None)) by (rewrite map_length; exact hs). apply (map_nth Some s None). }
  assert (hmono : forall l (s : vals), length s <= length (srun s l)).
  { induction l as [|o l IH]; intros s; [cbn; lia|]. cbn. pose proof (sstep_len s o). pose proof (IH (sstep s o)). lia. }
  pose proof (eq_trans (eq_sym (hs _ hl)) hn) as hn'. injection hn' as hn'.
  assert (hl2 : n < length (srun (srun [] l1) l2)) by (pose proof (hmono l2 (srun [] l1)); lia).
  destruct (srun_frozen l2 _ n b hn' r2) as [q | q]; [left | right];
    (etransitivity; [exact (hs _ hl2) | exact (f_equal Some q)]).
Qed.

Definition b40 : list Z := repeat 97%Z 40.
(** [a = "a" * 40; a.freeze; b = a[0, 39]; io.readpartial(4, a)]. *)
Definition read_into : list op := [ONew b40 true; OFreeze 0; OSub 0 0 39; ORead 0 [120%Z]].
Lemma read_into_bad : exists m, run empty_mem read_into = Some m
  /\ nth 1 (seen m) (Some None) = None /\ nth 0 (seen m) None = Some (Some ([120%Z], true))
  /\ nth 1 (srun [] read_into) None = Some (repeat 97%Z 39, false).
Proof. eexists. split; [vm_compute; reflexivity|]. vm_compute. auto. Qed.
Lemma read_into_next : run empty_mem (read_into ++ [OMut 1 (fun b => b) InPlace]) = None.
Proof. vm_compute. reflexivity. Qed.
(** [Fiddle] calls [strlen] with a frozen string that has a slice. *)
Definition call_with : list op := [ONew b40 true; OFreeze 0; OSub 0 0 39; OCall 0 true].
Lemma call_with_bad : exists m, run empty_mem call_with = Some m
  /\ nth 1 (seen m) (Some None) = None /\ nth 1 (srun [] call_with) None = Some (repeat 97%Z 39, false).
Proof. eexists. split; [vm_compute; reflexivity|]. vm_compute. auto. Qed.
(** [s.append_as_bytes(s)]. *)
Lemma append_self_bad : exists m1 m2,
  run empty_mem [ONew b40 true] = Some m1 /\ append_self m1 0 true = None
  /\ run empty_mem [ONew (repeat 97%Z 20) false] = Some m2 /\ append_self m2 0 false = None.
Proof.
  eexists. eexists. split; [vm_compute; reflexivity|]. split; [vm_compute; reflexivity|].
  split; [vm_compute; reflexivity | vm_compute; reflexivity].
Qed.
Lemma append_self_short : forall m i b f grow, objs m i = Some (mkO (Inl b) f) -> length b + length b <= cap -> append_self m i grow = Some (b ++ b).
Proof. intros m i b f grow e h. unfold append_self. rewrite e. cbn [read]. destruct (Nat.ltb_spec cap (length b + length b)); [lia | reflexivity]. Qed.
