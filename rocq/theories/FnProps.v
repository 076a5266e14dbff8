(** C14: File.fnmatch implements the glob language. *)
From Coq Require Import ZArith List Bool.
From Verif Require Import FnSpec FnModel FnProofs.
Import ListNotations.
Open Scope Z_scope.

(** Without FNM_EXTGLOB, for every pattern, name, combination of the other flags
    and case mapping: the call terminates and answers exactly membership in the
    language of the pattern. *)
Theorem C14_fnmatch_partial lower fl p s : f_extglob fl = false ->
  exists b, fnmatch lower fl p s = Some b /\ (b = true <-> in_lang lower fl p s).
Proof. exact (fnmatch_plain lower fl p s). Qed.
Print Assumptions C14_fnmatch_partial.

(** With FNM_EXTGLOB, for every well-formed brace pattern, nested to any depth:
    exactly the union of the languages of its expansions. *)
Theorem C14_braces_partial lower fl a s : f_extglob fl = true -> Forall (wf (f_noescape fl) false) a ->
  exists b, fnmatch lower fl (renders a) s = Some b /\ (b = true <-> exists e, In e (expansions a) /\ in_lang lower fl e s).
Proof. exact (fnmatch_braces lower fl a s). Qed.
Print Assumptions C14_braces_partial.

(** Every call terminates, unbalanced braces included. *)
Theorem C14_terminates lower fl p s : exists b, fnmatch lower fl p s = Some b.
Proof. exact (fnmatch_total lower fl p s). Qed.
Print Assumptions C14_terminates.

(** A stray closing brace in front of a group switches the expansion off: the
    pattern "}{b,c}" is the literal text followed by a group, so it should match
    "}b", and does not. *)
Theorem C14_stray_brace_refuted : exists fl pre a s e, f_extglob fl = true /\ pre = [125] /\ Forall (wf (f_noescape fl) false) a /\
  In e (expansions a) /\ s = pre ++ e /\
  (forall lower, in_lang lower fl (pre ++ e) s) /\
  (forall lower, fnmatch lower fl (pre ++ renders a) s = Some false).
Proof.
  exists (Build_flags false false false false true), [125], [Alt [[Ch 98]; [Ch 99]]], [125; 98], [98].
  split; [reflexivity|]. split; [reflexivity|].
  split; [repeat constructor; cbn; try discriminate; auto|]. split; [cbn; auto|]. split; [reflexivity|].
  split; [intro lower; unfold in_lang; cbn; unfold seg_lang; cbn; repeat constructor|]. intro lower. reflexivity.
Qed.
Print Assumptions C14_stray_brace_refuted.

(** Ruby documents that a leading period must be matched by an explicit leading
    period in the pattern.  A leading star can give the period back to a literal:
    "*.a" matches ".a". *)
Theorem C14_leading_period_refuted : exists fl p s, f_dotmatch fl = false /\ hidden s /\ hd_error p = Some 42 /\
  forall lower, fnmatch lower fl p s = Some true.
Proof.
  exists (Build_flags false false false false false), [42; 46; 97], [46; 97].
  split; [reflexivity|]. split; [exists [97]; reflexivity|]. split; [reflexivity|]. intro lower.
  reflexivity.
Qed.
Print Assumptions C14_leading_period_refuted.

Definition idl (c : Z) : Z := if (65 <=? c) && (c <=? 90) then c + 32 else c.
(** "**/a?*c" against "x/y/abbc": path mode, a double star and a backtracking star. *)
Example C14_example :
  fnmatch idl (Build_flags false true false false false) [42; 42; 47; 97; 63; 42; 99] [120; 47; 121; 47; 97; 98; 99; 98; 99] = Some true
  /\ fnmatch idl (Build_flags false true false false false) [42; 42; 47; 97; 63; 42; 99] [120; 47; 46; 121; 47; 97; 98; 99] = Some false
  /\ fnmatch idl (Build_flags false false false true false) [91; 33; 97; 45; 99; 93; 42; 92; 42] [68; 120; 42] = Some true
  /\ fnmatch idl (Build_flags false false false true false) [91; 33; 97; 45; 99; 93; 42; 92; 42] [66; 120; 42] = Some false
  /\ fnmatch idl (Build_flags false false false false false) [42; 97] [46; 98; 97] = Some false
  /\ fnmatch idl (Build_flags false false true false false) [42; 97] [46; 98; 97] = Some true.
Proof. vm_compute. repeat split. Qed.
(** "a{b,{c,d}e}" is well formed, and its expansions in order. *)
Example C14_braces_example :
  let a := [Ch 97; Alt [[Ch 98]; [Alt [[Ch 99]; [Ch 100]]; Ch 101]]] in
  Forall (wf false false) a
  /\ renders a = [97; 123; 98; 44; 123; 99; 44; 100; 125; 101; 125]
  /\ expansions a = [[97; 98]; [97; 99; 101]; [97; 100; 101]]
  /\ fnmatch idl (Build_flags false false false false true) (renders a) [97; 100; 101] = Some true
  /\ fnmatch idl (Build_flags false false false false true) (renders a) [97; 98; 101] = Some false.
Proof. split; [repeat constructor; cbn; try discriminate; auto|]. vm_compute. repeat split. Qed.
