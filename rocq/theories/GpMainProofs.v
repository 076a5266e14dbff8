(** The block theorems in the form stated in GpProps.v. *)
From Coq Require Import ZArith Bool List Arith Lia.
From Verif Require Import IntModel FixAsmModel ValueModel GpModel GpSpec GpFileProofs GpRefProofs
  GpOpProofs GpInvProofs GpProofs GpStepProofs.
Import ListNotations.

Section Block.
Variables (sp : nat) (p : list (ins * nat)) (m : mach) (f : frame) (a : astate) (cs : list (list minst)).
Hypothesis W : wf sp p.
Hypothesis Hw : forall s, (s < sp)%nat -> is_i64 (f s).
Hypothesis Hm : forall s, (s < sp)%nat -> home m s = f s.
Hypothesis Hn : no_self_div p.
Hypothesis Hd : div_ok f p.
Hypothesis Ec : compile (entry sp) p = (a, cs).

Lemma block_res : match exec_block 0 cs m with
  | Done m1 => exists f1, run f p = Some f1 /\ forall s, (s < last_sp sp p)%nat -> final a m1 s = f1 s
  | Exit n h => exists f1 i nsp, run f (firstn n p) = Some f1 /\
      nth_error p n = Some (i, nsp) /\ exit_res (sp_at sp p n) nsp (taken (nth n cs [])) h f1 i
  | Crash => False
  end.
Proof.
  pose proof (compile_ok p sp 0 (entry sp) m f a cs (entry_ok sp m f Hm Hw) W Hn Hd Ec) as H.
  destruct (exec_block 0 cs m); auto. destruct H as (q & f1 & i & nsp & -> & H). exists f1, i, nsp. exact H.
Qed.

Lemma run_app q : forall g r, run g (q ++ r) = match run g q with Some g1 => run g1 r | None => None end.
Proof.
  induction q as [|[i s] q IH]; intros g r; [reflexivity|]. cbn. destruct (step g i); auto.
Qed.
Lemma run_stuck n f1 i nsp : run f (firstn n p) = Some f1 -> nth_error p n = Some (i, nsp) ->
  step f1 i = None -> run f p = None.
Proof.
  intros E1 E2 E3. rewrite <- (firstn_skipn n p), run_app, E1.
  assert (skipn n p = (i, nsp) :: skipn (S n) p) as ->.
  { revert E2. clear. revert n. induction p as [|x q IH]; intros [|n]; cbn; try discriminate.
    - intros E. now injection E as ->.
    - apply IH. }
  cbn. now rewrite E3.
Qed.

Lemma block_done m1 : exec_block 0 cs m = Done m1 ->
  exists f1, run f p = Some f1 /\ forall s, (s < last_sp sp p)%nat -> final a m1 s = f1 s.
Proof. intros E. pose proof block_res as H. rewrite E in H. exact H. Qed.

Lemma block_progress f1 : run f p = Some f1 -> exists m1, exec_block 0 cs m = Done m1.
Proof.
  intros Er. pose proof block_res as H. destruct (exec_block 0 cs m) as [m1|n h|]; [eauto| |contradiction].
  destruct H as (f2 & i & nsp & E1 & E2 & E3 & _). rewrite (run_stuck _ _ _ _ E1 E2 E3) in Er. discriminate.
Qed.

Lemma block_exit n h : exec_block 0 cs m = Exit n h ->
  exists f1 i nsp, run f (firstn n p) = Some f1 /\ nth_error p n = Some (i, nsp) /\ step f1 i = None /\
    (forall s, (s < sp_at sp p n)%nat -> In s (reads i) \/ ~ overflows f1 i \/ taken (nth n cs []) <> Some s ->
       h s = f1 s).
Proof.
  intros E. pose proof block_res as H. rewrite E in H. destruct H as (f1 & i & nsp & E1 & E2 & E3 & E4).
  exists f1, i, nsp. repeat split; auto. intros s Ls Hs.
  destruct (E4 s Ls) as [|(A & B & C & _)]; [assumption|]. exfalso. tauto.
Qed.

Lemma block_few n h : exec_block 0 cs m = Exit n h -> (sp_at sp p n <= 3)%nat ->
  exists f1 i nsp, run f (firstn n p) = Some f1 /\ nth_error p n = Some (i, nsp) /\ step f1 i = None /\
    (forall s, (s < nsp)%nat -> writes i <> Some s -> (s < sp_at sp p n)%nat -> h s = f1 s).
Proof.
  intros E Hf. pose proof block_res as H. rewrite E in H. destruct H as (f1 & i & nsp & E1 & E2 & E3 & E4).
  exists f1, i, nsp. repeat split; auto. intros s Ls Hs L2.
  destruct (E4 s L2) as [|(_ & _ & _ & [D|[D|D]])]; [assumption|contradiction|lia..].
Qed.

Lemma block_never : exec_block 0 cs m <> Crash.
Proof. pose proof block_res as H. intros E. now rewrite E in H. Qed.
End Block.
