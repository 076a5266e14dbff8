From Coq Require Import List Bool ZArith.
From Verif Require Import SuccModel SuccSpec SuccProofs.
Import ListNotations.
Open Scope Z_scope.

(** C109. succ adds one to the number that the last letters and digits write in their alphabets, puts one more in front when
    they do not suffice, and leaves every other character alone. Missing: strings beyond ASCII, and those that end with another
    character behind a lone z, Z or 9. *)
Theorem C109_succ_partial s : ascii s = true -> fair s = true -> str_next s = ruby_succ s.
Proof. exact (succ_eq s). Qed.
(** az -> ba, Zz -> AAa, a9 -> b0, Az99 -> Ba00, 1.9.9 -> 2.0.0, a-9 -> a-10, <<koalas>> -> <<koalat>>, stars alone *)
Example C109_example : str_next [97; 122] = [98; 97] /\ str_next [90; 122] = [65; 65; 97] /\ str_next [97; 57] = [98; 48]
  /\ str_next [65; 122; 57; 57] = [66; 97; 48; 48] /\ str_next [49; 46; 57; 46; 57] = [50; 46; 48; 46; 48]
  /\ str_next [97; 45; 57] = [97; 45; 49; 48] /\ str_next [60; 60; 97; 115; 62; 62] = [60; 60; 97; 116; 62; 62]
  /\ str_next [42; 42] = [42; 43] /\ fair [60; 60; 97; 115; 62; 62] = true /\ fair [49; 46; 57; 46; 57] = true.
Proof. repeat split; reflexivity. Qed.
Print Assumptions C109_succ_partial.

Theorem C109_gap_refuted : exists s, ascii s = true /\ str_next s <> ruby_succ s.
Proof. exists [97; 45; 57; 45]. rewrite (proj1 gap_bad), (proj2 gap_bad). split; [reflexivity|discriminate]. Qed.
Print Assumptions C109_gap_refuted.
