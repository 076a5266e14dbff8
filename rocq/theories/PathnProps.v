(** C142: cleanpath, + and relative_path_from of Pathname. *)
From Coq Require Import ZArith List Bool.
From Verif Require Import PathnModel PathnSpec PathnProofs.
Import ListNotations.
Local Open Scope Z_scope.

(** C142. cleanpath leads from every directory to where the path does, in a tree without symbolic links. *)
Theorem C142_cleanpath_leads : forall dir p, leads dir (cleanpath p) = leads dir p.
Proof. exact (cleanpath_leads). Qed.
Example C142_cleanpath_leads_example : cleanpath (P false [Nm 1; Dot; DotDot; DotDot; Nm 2]) = P false [DotDot; Nm 2] /\ leads [7; 8] (P false [Nm 1; Dot; DotDot; DotDot; Nm 2]) = [2; 8].
Proof. repeat split; reflexivity. Qed.
Print Assumptions C142_cleanpath_leads.

(** cleanpath has no . and has .. only in front, and not if it is absolute. *)
Theorem C142_cleanpath_clean : forall p, clean (cleanpath p).
Proof. exact (cleanpath_clean). Qed.
Example C142_cleanpath_clean_example : cleanpath (P true [DotDot; Nm 1; DotDot; DotDot; Nm 2]) = P true [Nm 2] /\ cleanpath (P false [Nm 1; DotDot]) = P false [Dot] /\ cleanpath (P true [Nm 1; DotDot]) = P true [].
Proof. repeat split; reflexivity. Qed.
Print Assumptions C142_cleanpath_clean.

(** cleanpath of a cleanpath is the same path. *)
Theorem C142_cleanpath_idem : forall p, cleanpath (cleanpath p) = cleanpath p.
Proof. exact (cleanpath_idem). Qed.
Example C142_cleanpath_idem_example : cleanpath (P false [DotDot; DotDot; Nm 2]) = P false [DotDot; DotDot; Nm 2].
Proof. repeat split; reflexivity. Qed.
Print Assumptions C142_cleanpath_idem.

(** Absolute paths have one cleanpath exactly if they lead to one place. *)
Theorem C142_cleanpath_unique : forall p q, absolute p = true -> absolute q = true ->
  (cleanpath p = cleanpath q <-> leads [] p = leads [] q).
Proof. exact (cleanpath_unique). Qed.
Example C142_cleanpath_unique_example : cleanpath (P true [Nm 1; DotDot; Nm 2]) = cleanpath (P true [DotDot; Nm 2; Dot]).
Proof. repeat split; reflexivity. Qed.
Print Assumptions C142_cleanpath_unique.

(** Relative paths have one cleanpath exactly if they lead to one place from every directory. *)
Theorem C142_cleanpath_unique_rel : forall p q, absolute p = false -> absolute q = false ->
  (cleanpath p = cleanpath q <-> forall dir, leads dir p = leads dir q).
Proof. exact (cleanpath_unique_rel). Qed.
Example C142_cleanpath_unique_rel_example : cleanpath (P false [Nm 1; DotDot; DotDot; Nm 2]) = cleanpath (P false [DotDot; Nm 2; Dot]) /\ leads [] (P false [DotDot]) = leads [] (P false [Dot]) /\ leads [1] (P false [DotDot]) = [] /\ leads [1] (P false [Dot]) = [1].
Proof. repeat split; reflexivity. Qed.
Print Assumptions C142_cleanpath_unique_rel.

(** p + q leads to where q leads from where p leads. *)
Theorem C142_plus : forall dir p q, leads dir (plus p q) = leads (leads dir p) q.
Proof. exact (plus_ok). Qed.
Example C142_plus_example : plus (P true [Nm 1; Nm 2]) (P false [DotDot; Dot; DotDot; DotDot; Nm 3]) = P true [Nm 3] /\ plus (P false [Nm 1; Dot]) (P false [DotDot]) = P false [Dot] /\ plus (P false [DotDot]) (P false [DotDot; Nm 1]) = P false [DotDot; DotDot; Nm 1] /\ plus (P false [Nm 1]) (P true [Nm 2]) = P true [Nm 2].
Proof. repeat split; reflexivity. Qed.
Print Assumptions C142_plus.

(** relative_path_from, where it does not raise, is relative and leads from the base to the destination. *)
Theorem C142_relative_leads : forall dir dest base r, relative_path_from dest base = Some r ->
  absolute r = false /\ leads (leads dir base) r = leads dir dest.
Proof. exact (relative_ok). Qed.
Example C142_relative_leads_example : relative_path_from (P true [Nm 1; Nm 2; Nm 3]) (P true [Nm 1; Nm 4; Nm 5]) = Some (P false [DotDot; DotDot; Nm 2; Nm 3]) /\ relative_path_from (P false [DotDot; Nm 1]) (P false [DotDot]) = Some (P false [Nm 1]) /\ relative_path_from (P false [Nm 1]) (P false [Nm 1; Dot]) = Some (P false [Dot]).
Proof. repeat split; reflexivity. Qed.
Print Assumptions C142_relative_leads.

(** It does not raise for absolute paths. *)
Theorem C142_relative_abs : forall dest base, absolute dest = true -> absolute base = true ->
  exists r, relative_path_from dest base = Some r.
Proof. exact (relative_abs). Qed.
Example C142_relative_abs_example : relative_path_from (P true []) (P true [DotDot; Nm 1]) = Some (P false [DotDot]).
Proof. repeat split; reflexivity. Qed.
Print Assumptions C142_relative_abs.

(** Nor for relative paths whose base, made clean, has no .. in it. *)
Theorem C142_relative_some : forall dest base, absolute dest = absolute base -> ~ In DotDot (names (cleanpath base)) ->
  exists r, relative_path_from dest base = Some r.
Proof. exact (relative_some). Qed.
Example C142_relative_some_example : relative_path_from (P false [DotDot; Nm 1]) (P false [Nm 2; DotDot; Nm 3]) = Some (P false [DotDot; DotDot; Nm 1]) /\ relative_path_from (P false [Nm 1]) (P false [DotDot]) = None.
Proof. repeat split; reflexivity. Qed.
Print Assumptions C142_relative_some.

(** It raises if one path is absolute and the other is not. *)
Theorem C142_relative_mixed : forall dest base, absolute dest <> absolute base -> relative_path_from dest base = None.
Proof. exact (relative_mixed). Qed.
Example C142_relative_mixed_example : relative_path_from (P false [Nm 1]) (P true [Nm 1]) = None.
Proof. repeat split; reflexivity. Qed.
Print Assumptions C142_relative_mixed.

(** The base and the relative path make the destination, for absolute paths. *)
Theorem C142_relative_round : forall dest base r, absolute dest = true -> absolute base = true ->
  relative_path_from dest base = Some r -> cleanpath (plus base r) = cleanpath dest.
Proof. exact (relative_round). Qed.
Example C142_relative_round_example : cleanpath (plus (P true [Nm 1; Nm 4]) (P false [DotDot; Nm 2; Nm 3])) = P true [Nm 1; Nm 2; Nm 3].
Proof. repeat split; reflexivity. Qed.
Print Assumptions C142_relative_round.

(** cleanpath(true) leads to where the path does, whatever the symbolic links are. *)
Theorem C142_conservative_leads : forall enter dir p, leads_link enter dir (cleanpath_conservative p) = leads_link enter dir p.
Proof. exact (conservative_ok). Qed.
Example C142_conservative_leads_example : cleanpath_conservative (P true [DotDot; Nm 1; Dot; DotDot; Nm 2; Dot]) = P true [Nm 1; DotDot; Nm 2; Dot] /\ leads_link (fun d z => if z =? 1 then [5; 6] else z :: d) [] (P true [Nm 1; DotDot; Nm 2]) = [2; 6].
Proof. repeat split; reflexivity. Qed.
Print Assumptions C142_conservative_leads.

(** It has no . before its end. *)
Theorem C142_conservative_dots : forall p a b, names (cleanpath_conservative p) = a ++ Dot :: b -> b = [].
Proof. exact (conservative_dots). Qed.
Example C142_conservative_dots_example : cleanpath_conservative (P false [Dot; Nm 1; Dot; Nm 2]) = P false [Nm 1; Nm 2] /\ cleanpath_conservative (P false [Dot; Dot]) = P false [Dot] /\ cleanpath_conservative (P false [DotDot; Dot]) = P false [DotDot] /\ cleanpath_conservative (P true [Dot]) = P true [].
Proof. repeat split; reflexivity. Qed.
Print Assumptions C142_conservative_dots.

(** It does not begin with .. if it is absolute. *)
Theorem C142_conservative_front : forall p, absolute p = true -> hd Dot (names (cleanpath_conservative p)) <> DotDot.
Proof. exact (conservative_front). Qed.
Example C142_conservative_front_example : cleanpath_conservative (P true [Dot; DotDot; Dot; DotDot; Nm 2]) = P true [Nm 2] /\ cleanpath_conservative (P false [Dot; DotDot; Nm 2]) = P false [DotDot; Nm 2].
Proof. repeat split; reflexivity. Qed.
Print Assumptions C142_conservative_front.

(** parent leads to the parent of where the path leads. *)
Theorem C142_parent : forall dir p, leads dir (parent p) = tl (leads dir p).
Proof. exact (parent_ok). Qed.
Example C142_parent_example : parent (P false [Nm 1]) = P false [Dot] /\ parent (P true []) = P true [] /\ parent (P false [DotDot]) = P false [DotDot; DotDot].
Proof. repeat split; reflexivity. Qed.
Print Assumptions C142_parent.

(** join leads along its arguments, one after the other. *)
Theorem C142_join : forall dir self args, leads dir (join self args) = fold_left leads args (leads dir self).
Proof. exact (join_ok). Qed.
Example C142_join_example : join (P true [Nm 1]) [P false [Nm 2]; P false [DotDot; Nm 3]; P false [Dot]] = P true [Nm 1; Nm 3] /\ join (P true [Nm 1]) [P false [Nm 2]; P true [Nm 3]; P false [Nm 4]] = P true [Nm 3; Nm 4] /\ join (P false [Nm 1]) [] = P false [Nm 1].
Proof. repeat split; reflexivity. Qed.
Print Assumptions C142_join.
