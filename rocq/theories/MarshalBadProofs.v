(** Graphs that do not survive Marshal, and bytes on which load panics.  [rt] with no
    Float in the graph: the oracles for Floats are not consulted. *)
From Coq Require Import String Ascii ZArith List Bool Lia.
From Verif Require Import Utf8Model IdModel EncModel MarshalModel MarshalSpec.
Import ListNotations.
Open Scope Z_scope.

Section Bad.
Variables (fmt : Z -> list Z) (prs : list Z -> option Z) (plain sub : list Z -> bool) (deep : heap -> nat -> nat -> bool).
Definition loads (h : heap) (v : val) (r : res (val * heap)) : Prop :=
  exists out, dump fmt (S (length h)) h v = Some out /\ load prs plain sub deep out = r.
Lemma iso_root h a h' a' : isomorphic h (VRef a) h' (VRef a') ->
  exists f o, nth_error h a = Some o /\ nth_error h' a' = Some (omap f o).
Proof.
  intros (f & e & _ & i). injection e as ->. destruct (i a ltac:(now constructor)) as (o & h1 & h2). now exists f, o.
Qed.
Ltac run := eexists; split; [vm_compute; reflexivity | vm_compute; reflexivity].
Ltac differ := let i := fresh in intros i; apply iso_root in i as (f & o & e1 & e2); cbn in e1; injection e1 as <-; cbn in e2;
  congruence.

(** [2**40, s, s] *)
Definition g_big : heap := [OArr None [VFix (2 ^ 40); VRef 1; VRef 1] []; OStr None (bs "s") Utf8 []].
Definition g_big' : heap := [OArr None [VFix (2 ^ 40); VRef 1; VFix (2 ^ 40)] []; OStr None (bs "s") Utf8 []].
Lemma bad_big : loads g_big (VRef 0) (Ok (VRef 0, g_big')) /\ ~ isomorphic g_big (VRef 0) g_big' (VRef 0).
Proof. split; [run | differ]. Qed.
(** [s, s], s in ISO-8859-1 *)
Definition g_enc : heap := [OArr None [VRef 1; VRef 1] []; OStr None (bs "s") (Iso8859 1) []].
Definition g_enc' : heap := [OArr None [VRef 2; VRef 1] []; OStr None (bs "ISO-8859-1") Ascii8 []; OStr None (bs "s") (Iso8859 1) []].
Lemma bad_enc : loads g_enc (VRef 0) (Ok (VRef 0, g_enc')) /\ ~ isomorphic g_enc (VRef 0) g_enc' (VRef 0).
Proof.
  split; [run|]. intros i. apply iso_root in i as (f & o & e1 & e2). cbn in e1. injection e1 as <-. cbn in e2. injection e2 as q1 q2.
  congruence.
Qed.
(** [/a/, s, s] *)
Definition g_reg : heap := [OArr None [VRef 1; VRef 2; VRef 2] []; OReg (bs "a") 0 UsAscii []; OStr None (bs "s") Ascii8 []].
Lemma bad_reg : loads g_reg (VRef 0) Raise.
Proof. run. Qed.
(** A String whose instance variable holds an object: [t, t] with t = "t", @x = "u". *)
Definition g_iv : heap := [OArr None [VRef 1; VRef 1] []; OStr None (bs "t") Utf8 [(SStr (bs "@x"), VRef 2)]; OStr None (bs "u") Ascii8 []].
Definition g_iv' : heap := [OArr None [VRef 2; VRef 1] []; OStr None (bs "u") Ascii8 []; OStr None (bs "t") Utf8 [(SStr (bs "@x"), VRef 1)]].
Lemma bad_iv : loads g_iv (VRef 0) (Ok (VRef 0, g_iv')) /\ ~ isomorphic g_iv (VRef 0) g_iv' (VRef 0).
Proof.
  split; [run|]. intros i. apply iso_root in i as (f & o & e1 & e2). cbn in e1. injection e1 as <-. cbn in e2. injection e2 as q1 q2.
  congruence.
Qed.
(** h = {}.compare_by_identity with two keys "a" *)
Definition g_id : heap := [OHash None [(VRef 1, VFix 1); (VRef 2, VFix 2)] None true []; OStr None (bs "a") Utf8 []; OStr None (bs "a") Utf8 []].
Definition g_id' : heap := [OHash None [(VRef 1, VFix 2)] None true []; OStr None (bs "a") Utf8 []; OStr None (bs "a") Utf8 []].
Lemma bad_id : loads g_id (VRef 0) (Ok (VRef 0, g_id')) /\ ~ isomorphic g_id (VRef 0) g_id' (VRef 0).
Proof. split; [run | differ]. Qed.
(** A Symbol in UTF-16LE of ASCII bytes. *)
Lemma bad_sym : loads [] (VSym (SByt [97; 0] Utf16Le)) (Ok (VSym (SStr [97; 0]), [])) /\
  ~ isomorphic [] (VSym (SByt [97; 0] Utf16Le)) [] (VSym (SStr [97; 0])).
Proof. split; [run|]. intros (f & e & _). discriminate. Qed.
(** A::S.new *)
Lemma bad_nested : loads [OStr (Some (bs "A::S")) (bs "x") Ascii8 []] (VRef 0) Raise.
Proof. run. Qed.
Lemma bad_panic : load prs plain sub deep [4; 8; 34; 250] = Panic /\ load prs plain sub deep [4; 8; 91; 250] = Panic.
Proof. split; reflexivity. Qed.

End Bad.

(** S.new("é"), S < String *)
Definition g_sub : heap := [OStr (Some (bs "S")) [195; 169] Utf8 []].
Definition g_sub' : heap := [OStr (Some (bs "S")) [195; 169] Ascii8 []].
Lemma bad_sub fmt prs plain deep : loads fmt prs plain (fun _ => true) deep g_sub (VRef 0) (Ok (VRef 0, g_sub')) /\
  ~ isomorphic g_sub (VRef 0) g_sub' (VRef 0).
Proof.
  split; [eexists; split; [vm_compute; reflexivity | reflexivity]|]. intros i. apply iso_root in i as (f & o & e1 & e2).
  cbn in e1. injection e1 as <-. cbn in e2. congruence.
Qed.
