From Coq Require Import List Bool ZArith.
From Verif Require Import TrModel TrSpec TrProofs TrBadProofs.
Import ListNotations.
Open Scope Z_scope.

(** C107. tr and tr_s translate as Ruby does, in all three paths: the text and whether anything was translated. Missing: an
    empty receiver, ranges that end with a backslash, a caret before the replacement and impossible ranges in it. *)
Theorem C107_tr_partial utf8 s from to squeeze : tr_ok utf8 from to = true -> chars_ok s = true -> s <> [] ->
  tr utf8 s from to squeeze = ruby_tr s from to squeeze.
Proof. exact (tr_eq utf8 s from to squeeze). Qed.
(** hello: tr_s from el to a star and a dash, tr from ^a-e to a star; tr from a-y to b-z in another encoding with a
    character of two bytes; a range across the surrogates, which are no characters *)
Example C107_example :
  tr true [104; 101; 108; 108; 111] [101; 108] [42; 45] true = Some ([104; 42; 45; 111], true)
  /\ tr true [104; 101; 108; 108; 111] [94; 97; 45; 101] [42] false = Some ([42; 101; 42; 42; 42], true)
  /\ tr false [97; 40000; 98; 122] [97; 45; 121] [98; 45; 122] false = Some ([98; 40000; 99; 122], true)
  /\ tr true [0xD7FF; 0xE000; 0xE001] [0xD7FF; 45; 0xE001] [97; 98; 99] false = Some ([97; 98; 99], true)
  /\ ruby_tr [97; 97; 98] [97; 97] [65; 66] false = Some ([66; 66; 98], true)
  /\ tr_ok true [101; 108] [42; 45] = true /\ tr_ok true [94; 97; 45; 101] [42] = true /\ tr_ok false [97; 45; 121] [98; 45; 122] = true.
Proof. vm_compute. repeat split. Qed.
Print Assumptions C107_tr_partial.

(** The path for ASCII strings cannot be told from the two others. *)
Theorem C107_paths s from to squeeze : chars_ok s = true -> chars_ok from = true ->
  match fast s from to squeeze with
  | Some (Some r) => translate s from to squeeze = Some r /\ translate_bytes s from to squeeze = Some r
  | Some None => True
  | None => translate s from to squeeze = None
  end.
Proof. exact (fast_same s from to squeeze). Qed.
Example C107_paths_example : fast [97; 98] [97; 45; 92; 122] [94; 65; 45; 90] true = Some (Some ([65; 66], true))
  /\ fast [97; 98] [97; 233] [65] true = Some None.
Proof. split; reflexivity. Qed.
Print Assumptions C107_paths.

Theorem C107_caret_refuted : exists s from to, tr true s from to false <> ruby_tr s from to false /\ turned to = true.
Proof. exists [104; 101; 108; 108; 111], [101; 108], [94; 120]. rewrite (proj1 caret_bad), (proj2 caret_bad). split; [discriminate|reflexivity]. Qed.
Print Assumptions C107_caret_refuted.
Theorem C107_escape_refuted : exists s from to, tr true s from to false <> ruby_tr s from to false /\ plain_set from = false /\ turned to = false.
Proof. exists [97; 122], [43; 45; 92; 122], [46]. rewrite (proj1 escape_bad), (proj1 (proj2 escape_bad)). split; [discriminate|split; reflexivity]. Qed.
Print Assumptions C107_escape_refuted.
Theorem C107_empty_refuted : exists from to, tr true [] from to false = None /\ ruby_tr [] from to false = Some ([], false).
Proof. exists [122; 45; 97], [46]. split; [exact (proj1 empty_bad)|exact (proj1 (proj2 empty_bad))]. Qed.
Print Assumptions C107_empty_refuted.
Theorem C107_unread_refuted : exists s from to r, tr true s from to false = None /\ ruby_tr s from to false = Some r.
Proof. exists [98], [98], [99; 122; 45; 97], ([99], true). exact unread_bad. Qed.
Print Assumptions C107_unread_refuted.

(** C108. count, delete and squeeze take the characters that are in all sets, in all three paths. Missing: ranges that end with
    a backslash, delete on an empty receiver. *)
Theorem C108_sets_partial utf8 s args : args_ok utf8 args = true -> chars_ok s = true ->
  count utf8 s args = ruby_count s args /\ squeeze utf8 s args = ruby_squeeze s args /\ (s <> [] -> delete utf8 s args = ruby_delete s args).
Proof. exact (fun h1 h2 => conj (count_eq utf8 s args h1 h2) (conj (squeeze_eq utf8 s args h1 h2) (delete_eq utf8 s args h1 h2))). Qed.
(** aabbcc with a-c and ^b; a string with a letter of two bytes *)
Example C108_example :
  count true [97; 97; 98; 98; 99; 99] [[97; 45; 99]; [94; 98]] = Some 4
  /\ delete true [97; 97; 98; 98; 99; 99] [[97; 45; 99]; [94; 98]] = Some [98; 98]
  /\ squeeze true [97; 97; 98; 98; 99; 99] [[97; 45; 99]; [94; 98]] = Some [97; 98; 98; 99]
  /\ squeeze true [97; 97; 233; 233] [] = Some [97; 233]
  /\ count false [97; 40000; 40000] [[94; 97]] = Some 2
  /\ count true [97] [[]] = Some 0 /\ count true [94; 97] [[94]] = Some 1
  /\ args_ok true [[97; 45; 99]; [94; 98]] = true /\ args_ok false [[94; 97]] = true.
Proof. repeat split; reflexivity. Qed.
Print Assumptions C108_sets_partial.

Theorem C108_escape_refuted : exists s args, count true s args <> ruby_count s args.
Proof. exists [97; 122], [[43; 45; 92; 122]]. rewrite (proj1 (proj2 (proj2 escape_bad))), (proj2 (proj2 (proj2 escape_bad))). discriminate. Qed.
Print Assumptions C108_escape_refuted.
Theorem C108_empty_refuted : exists args, delete true [] args = None /\ ruby_delete [] args = Some [].
Proof. exists [[122; 45; 97]]. exact (proj2 (proj2 empty_bad)). Qed.
Print Assumptions C108_empty_refuted.
