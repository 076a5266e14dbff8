(** Witnesses for the texts that are read differently from Ruby. *)
From Coq Require Import ZArith Bool Lia String Ascii List.
From Verif Require Import IntModel ImModel ImSpec IstrModel IstrSpec.
Import ListNotations.
Open Scope Z_scope.

Ltac nodigit := let d := fresh "d" in let D := fresh "D" in
  intros d D; unfold digit_of in D; lia.

(** "- 12".to_i: blanks between the sign and the digits are skipped. *)
Lemma gap_bad : ~ (forall base sg neg rest, 2 <= base <= 36 -> is_sign sg neg -> sg <> [] ->
  no_digit base rest -> no_prefix base rest -> returns (str_to_i (sg ++ rest) (NFix base)) 0).
Proof.
  intros H. destruct (H 10 [45] true (str " 12")) as [v [E [V _]]];
    [lia|unfold is_sign; auto|discriminate|cbn; nodigit| |].
  - intros p r [<-|[<-|[]]]; discriminate.
  - vm_compute in E. injection E as <-. vm_compute in V. discriminate.
Qed.
Lemma gap_sign_bad : str_to_i (str "+ -5") (NFix 10) = Ok (NFix 5).
Proof. reflexivity. Qed.

(** "0x 12".to_i(16). *)
Lemma prefix_gap_bad : ~ (forall base p rest, 2 <= base <= 36 -> In p (prefixes base) ->
  no_digit base rest -> returns (str_to_i (p ++ rest) (NFix base)) 0).
Proof.
  intros H. destruct (H 16 [48; 120] (str " 12")) as [v [E [V _]]];
    [lia|now left|cbn; nodigit|].
  vm_compute in E. injection E as <-. vm_compute in V. discriminate.
Qed.

(** A no-break space before the digits. *)
Lemma nbsp_bad : ~ (forall base s, 2 <= base <= 36 ->
  no_space s -> no_digit base s -> no_sign s -> no_prefix base s ->
  returns (str_to_i s (NFix base)) 0).
Proof.
  intros H. destruct (H 10 (160 :: str "12")) as [v [E [V _]]];
    [lia|cbn; unfold space; lia|cbn; nodigit|cbn; lia| |].
  - intros p r [<-|[<-|[]]]; discriminate.
  - vm_compute in E. injection E as <-. vm_compute in V. discriminate.
Qed.
Lemma integer_nbsp_bad : ~ (forall s v, kernel_integer_base s (NFix 10) = Ok v ->
  no_space s -> no_sign s -> ~ no_digit 10 s).
Proof.
  intros H. apply (H (160 :: str "12") (NFix 12)); [reflexivity|cbn; unfold space; lia|cbn; lia|].
  cbn. nodigit.
Qed.

(** Integer("0b1", 16): a run of hexadecimal digits refused for another
    base's prefix. *)
Lemma foreign_prefix_bad : ~ (forall base t ds, 2 <= base <= 36 -> run base t ds -> no_prefix base t ->
  returns (kernel_integer_base t (NFix base)) (number base ds)).
Proof.
  intros H. destruct (H 16 (str "0b1") [0; 11; 1]) as [v [E _]]; [lia| | |].
  - cbn. apply run_digit; [unfold digit_of; lia|]. apply run_digit; [unfold digit_of; lia|].
    apply run_one. unfold digit_of. lia.
  - intros p r [<-|[<-|[]]]; discriminate.
  - vm_compute in E. discriminate.
Qed.

(** Integer("0_10") is decimal, Integer("010") is octal. *)
Lemma underscore_bad :
  ~ (forall t v, kernel_integer_base t (NFix 0) = Ok v ->
       kernel_integer_base (filter (fun c => negb (c =? 95)) t) (NFix 0) = Ok v) /\
  ~ (forall t ds, run 10 t ds -> str_to_i t (NFix 0) = str_to_i (filter (fun c => negb (c =? 95)) t) (NFix 0)).
Proof.
  split; intros H.
  - specialize (H (str "0_10") (NFix 10) eq_refl). vm_compute in H. discriminate.
  - assert (R : run 10 (str "0_10") [0; 1; 0]).
    { cbn. apply run_us; [unfold digit_of; lia|]. apply run_digit; [unfold digit_of; lia|].
      apply run_one. unfold digit_of. lia. }
    specialize (H _ _ R). vm_compute in H. discriminate.
Qed.
