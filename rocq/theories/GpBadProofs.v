(** Witnesses: compiled Integer code that is wrong. *)
From Coq Require Import ZArith Bool List Arith Lia.
From Verif Require Import IntModel FixAsmModel ValueModel GpModel GpSpec GpFileProofs GpOpProofs.
Import ListNotations.
Open Scope Z_scope.

Definition frame_of (l : list Z) : frame := fun s => tag (nth s l 0).
Definition mach_of (f : frame) : mach := mkm (fun _ => 0) f.

(** y = x / x *)
Definition self_div : list (ins * nat) := [(IBin Div (Some 1%nat) 0%nat 0%nat, 2%nat)].
Definition self_frame : frame := frame_of [7].

(** [s += 1], the constant in slot [t]. *)
Definition inc (t s : slot) : list (ins * nat) := [(ILit t (tag 1), S t); (IBin Add (Some s) s t, t)].
(** Four variables incremented, then [v0 = v0 - v1]. *)
Definition victim : list (ins * nat) :=
  (inc 4 0 ++ inc 4 1 ++ inc 4 2 ++ inc 4 3)%nat ++ [(IBin Sub (Some 0%nat) 0%nat 1%nat, 4%nat)].
Definition victim_frame : frame := frame_of [2 ^ 61; - 2 ^ 61 - 12; 40; 50].
(** [v2 += 1; v2 = v0 * v1]: only three variables. *)
Definition wild : list (ins * nat) := inc 3%nat 2%nat ++ [(IBin Mul (Some 2%nat) 0%nat 1%nat, 3%nat)].
Definition wild_frame : frame := frame_of [2 ^ 61; 5; 40].

Lemma words l : (forall z, In z l -> - 2 ^ 62 <= z < 2 ^ 62) -> forall s, is_i64 (frame_of l s).
Proof.
  intros H s. unfold frame_of. apply fixr_tag. destruct (le_lt_dec (length l) s).
  - rewrite nth_overflow by assumption. unfold FixAsmProofs.fixr. lia.
  - apply H. now apply nth_In.
Qed.
Lemma self_words s : is_i64 (self_frame s).
Proof. apply words. cbn [In]. intros z H. lia. Qed.
Lemma victim_words s : is_i64 (victim_frame s).
Proof. apply words. cbn [In]. intros z H. lia. Qed.
Lemma wild_words s : is_i64 (wild_frame s).
Proof. apply words. cbn [In]. intros z H. lia. Qed.

Lemma inc_wf t s p : (s < t)%nat -> wf t p -> wf t (inc t s ++ p).
Proof.
  intros H Hp. cbn [inc app wf reads writes lit_ok].
  split; [intros u []|]. split; [intros u E; injection E as <-; lia|].
  split; [intros u Hu; destruct (Nat.eq_dec u t) as [->|]; [auto|left; lia]|].
  split; [unfold is_i64, tag; lia|].
  split; [intros u [<-|[<-|[]]]; lia|]. split; [intros u E; injection E as <-; lia|].
  split; [intros u Hu; left; lia|]. auto.
Qed.

Ltac last_ok := cbn [wf reads writes lit_ok]; split; [intros u [<-|[<-|[]]]; lia|];
  split; [intros u E; injection E as <-; lia|]; split; [intros u Hu; left; lia|]; auto.
Lemma self_wf : wf 2%nat self_div.
Proof. unfold self_div. last_ok. Qed.
Lemma victim_wf : wf 4%nat victim.
Proof. unfold victim. rewrite <- !app_assoc. repeat (apply inc_wf; [lia|]). last_ok. Qed.
Lemma wild_wf : wf 3%nat wild.
Proof. unfold wild. apply inc_wf; [lia|]. last_ok. Qed.

Lemma victim_nsd : no_self_div victim.
Proof. intros d l sp H. cbn in H. intuition discriminate. Qed.
Lemma wild_nsd : no_self_div wild.
Proof. intros d l sp H. cbn in H. intuition discriminate. Qed.

Lemma self_div_bad :
  wf 2%nat self_div /\ (forall s, is_i64 (self_frame s)) /\ div_ok self_frame self_div /\
  exists a cs m, compile (entry 2%nat) self_div = (a, cs) /\ exec_block 0 cs (mach_of self_frame) = Done m /\
    option_map (fun f => f 1%nat) (run self_frame self_div) = Some (tag 1) /\ final a m 1%nat = tag 0.
Proof.
  split; [apply self_wf|]. split; [apply self_words|]. split.
  { cbn. split; [|exact I]. intros [E _]. discriminate. }
  do 3 eexists. split; [reflexivity|]. split; [reflexivity|]. split; vm_compute; reflexivity.
Qed.

Lemma victim_div f : div_ok f victim.
Proof.
  unfold victim, inc. cbn [app].
  repeat (split; [exact I|]; match goal with |- match ?x with Some _ => _ | None => _ end => destruct x; [|exact I] end).
  exact I.
Qed.
Lemma wild_div f : div_ok f wild.
Proof.
  unfold wild, inc. cbn [app].
  repeat (split; [exact I|]; match goal with |- match ?x with Some _ => _ | None => _ end => destruct x; [|exact I] end).
  exact I.
Qed.

Definition exit_of (sp : nat) (p : list (ins * nat)) (f : frame) : option (nat * frame) :=
  match exec_block 0 (snd (compile (entry sp) p)) (mach_of f) with
  | Exit n h => Some (n, h) | _ => None end.

(** Slot 2 is neither read nor written by the instruction that leaves. *)
Lemma victim_bad :
  wf 4%nat victim /\ (forall s, is_i64 (victim_frame s)) /\ no_self_div victim /\ div_ok victim_frame victim /\
  exists h f1, exit_of 4%nat victim victim_frame = Some (8%nat, h) /\
    run victim_frame (firstn 8 victim) = Some f1 /\
    nth_error victim 8 = Some (IBin Sub (Some 0%nat) 0%nat 1%nat, 4%nat) /\
    f1 2%nat = tag 41 /\ unpack (h 2%nat mod 2 ^ 64) = RRef (h 2%nat mod 2 ^ 64).
Proof.
  split; [apply victim_wf|]. split; [apply victim_words|]. split; [apply victim_nsd|].
  split; [apply victim_div|].
  do 2 eexists. split; [vm_compute; reflexivity|]. split; [vm_compute; reflexivity|].
  split; [reflexivity|]. split; vm_compute; reflexivity.
Qed.

Lemma wild_bad :
  wf 3%nat wild /\ (forall s, is_i64 (wild_frame s)) /\ no_self_div wild /\ div_ok wild_frame wild /\
  exists h f1, exit_of 3%nat wild wild_frame = Some (2%nat, h) /\
    run wild_frame (firstn 2 wild) = Some f1 /\
    nth_error wild 2 = Some (IBin Mul (Some 2%nat) 0%nat 1%nat, 3%nat) /\
    f1 2%nat = tag 41 /\ unpack (h 2%nat mod 2 ^ 64) = RRef (h 2%nat mod 2 ^ 64).
Proof.
  split; [apply wild_wf|]. split; [apply wild_words|]. split; [apply wild_nsd|].
  split; [apply wild_div|].
  do 2 eexists. split; [vm_compute; reflexivity|]. split; [vm_compute; reflexivity|].
  split; [reflexivity|]. split; vm_compute; reflexivity.
Qed.

(** A run with loads, evictions, a copy, a comparison and a constant. *)
Definition mixed : list (ins * nat) :=
  [(IBin Add (Some 5) 0 1, 6); (IBin Mul (Some 6) 5 2, 7); (IBin Sub (Some 7) 6 3, 8);
   (IBin BAnd (Some 8) 7 4, 9); (IMov 0 8, 6); (ICmp CLt (Some 1) 0 5, 6);
   (ILit 6 (tag 3), 7); (IBin Div (Some 2) 5 6, 6); (IBin BXor (Some 3) 2 0, 6)]%nat.
Lemma mixed_wf : wf 5%nat mixed.
Proof.
  unfold mixed.
  repeat (cbn [wf reads writes lit_ok];
    split; [cbn [In]; intros u H; lia|];
    split; [intros u E; injection E as <-; lia|];
    split; [intros u Hu; match goal with |- _ \/ Some ?d = Some u =>
              destruct (Nat.eq_dec u d) as [->|]; [right; reflexivity|left; lia] end|];
    split; [first [exact I|unfold is_i64, tag; lia]|]).
  exact I.
Qed.
