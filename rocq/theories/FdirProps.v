(** C146: File.dirname. *)
From Coq Require Import ZArith List Bool.
From Verif Require Import FdirModel FdirSpec FdirProofs.
Import ListNotations.
Local Open Scope Z_scope.

(** C146. A path is empty, only slashes, a name, a name behind slashes, or a directory part, slashes and a name. *)
Theorem C146_forms : forall path,
  path = [] \/ (exists k, path = slashes (S k))
  \/ (exists b t, a_name b /\ path = b ++ slashes t)
  \/ (exists k b t, a_name b /\ path = slashes (S k) ++ b ++ slashes t)
  \/ (exists k p m b t, a_body p /\ a_name b /\ path = (slashes k ++ p ++ slashes (S m)) ++ b ++ slashes t).
Proof. exact (path_forms). Qed.
Example C146_forms_example : [47; 47; 97; 47; 98; 47; 47; 99; 47] = (slashes 2 ++ [97; 47; 98] ++ slashes 2) ++ [99] ++ slashes 1.
Proof. repeat split; reflexivity. Qed.
Print Assumptions C146_forms.

(** The empty path is in the current directory. *)
Theorem C146_empty : dirname_once [] = [dot].
Proof. exact (dirname_empty). Qed.
Example C146_empty_example : dirname_once [] = [46].
Proof. reflexivity. Qed.
Print Assumptions C146_empty.

(** Slashes are the root. *)
Theorem C146_slashes : forall k, dirname_once (slashes (S k)) = [slash].
Proof. exact (dirname_slashes). Qed.
Example C146_slashes_example : dirname_once [47; 47; 47] = [47].
Proof. reflexivity. Qed.
Print Assumptions C146_slashes.

(** A name is in the current directory. *)
Theorem C146_plain : forall b t, a_name b -> dirname_once (b ++ slashes t) = [dot].
Proof. exact (dirname_plain). Qed.
Example C146_plain_example : dirname_once [97; 98; 47; 47] = [46].
Proof. reflexivity. Qed.
Print Assumptions C146_plain.

(** A name behind slashes is in the root. *)
Theorem C146_root : forall k b t, a_name b -> dirname_once (slashes (S k) ++ b ++ slashes t) = [slash].
Proof. exact (dirname_root). Qed.
Example C146_root_example : dirname_once [47; 47; 97; 98; 47] = [47].
Proof. reflexivity. Qed.
Print Assumptions C146_root.

(** Otherwise the directory part is answered unchanged, behind one slash if there were slashes before it. *)
Theorem C146_deep : forall k p m b t, a_body p -> a_name b ->
  dirname_once ((slashes k ++ p ++ slashes (S m)) ++ b ++ slashes t)
  = match k with O => p | S _ => slash :: p end.
Proof. exact (dirname_deep). Qed.
Example C146_deep_example : dirname_once [47; 47; 97; 47; 47; 46; 46; 47; 98; 47; 47; 99; 47] = [47; 97; 47; 47; 46; 46; 47; 98] /\ dirname_once [97; 47; 98] = [97].
Proof. repeat split; reflexivity. Qed.
Print Assumptions C146_deep.

(** A level does it that many times. *)
Theorem C146_level : forall path n, dirname path (Z.of_nat n) = Some (again dirname_once n path).
Proof. exact (dirname_level). Qed.
Example C146_level_example : dirname [47; 97; 47; 98; 47; 99] 2 = Some [47; 97] /\ dirname [97; 47; 98] 9 = Some [46] /\ dirname [97; 47] 0 = Some [97; 47].
Proof. repeat split; reflexivity. Qed.
Print Assumptions C146_level.

(** A negative level raises ArgumentError. *)
Theorem C146_negative : forall path z, z < 0 -> dirname path z = None.
Proof. exact (dirname_negative). Qed.
Example C146_negative_example : dirname [97] (-1) = None.
Proof. reflexivity. Qed.
Print Assumptions C146_negative.
