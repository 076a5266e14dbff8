(** C137-C138: the methods of Hash that are written in Ruby. *)
From Coq Require Import ZArith List Bool.
From Verif Require Import StructModel DataModel HrbModel HrbSpec HrbProofs.
Import ListNotations.
Local Open Scope Z_scope.

(** C137. transform_keys: every new key has the value of the last pair that gets it, and the new keys are in the order in which they appear. *)
Theorem C137_transform_keys : forall t blk h, t <> None \/ blk <> None ->
  exists h', transform_keys t blk h = Some h' /\ good h' /\
  (forall m, fetch h' m = last_of (new_key t blk) h m) /\
  keys h' = firsts [] (map (new_key t blk) (keys h)).
Proof. exact (transform_keys_ok). Qed.
Example C137_transform_keys_example : transform_keys (Some [(1, 9); (2, 4)]) None [(1, VInt 5); (2, VInt 6); (3, VInt 7); (4, VInt 8)] = Some [(9, VInt 5); (4, VInt 8); (3, VInt 7)] /\ transform_keys None (Some (fun k => k / 2)) [(1, VInt 5); (2, VInt 6); (3, VInt 7); (4, VInt 8)] = Some [(0, VInt 5); (1, VInt 7); (2, VInt 8)] /\ transform_keys (Some [(1, 9)]) (Some (fun k => - k)) [(1, VInt 5); (2, VInt 6)] = Some [(9, VInt 5); (-2, VInt 6)] /\ transform_keys None None [] = None.
Proof. repeat split; reflexivity. Qed.
Print Assumptions C137_transform_keys.

(** If the new keys are distinct, every pair keeps its value and its place. *)
Theorem C137_injective : forall t blk h, t <> None \/ blk <> None -> NoDup (map (new_key t blk) (keys h)) ->
  transform_keys t blk h = Some (map (fun e => (new_key t blk (fst e), snd e)) h).
Proof. exact (transform_keys_injective). Qed.
Example C137_injective_example : transform_keys None (Some (fun k => k + 1)) [(1, VInt 5); (2, VInt 6); (3, VInt 7); (4, VInt 8)] = Some [(2, VInt 5); (3, VInt 6); (4, VInt 7); (5, VInt 8)].
Proof. repeat split; reflexivity. Qed.
Print Assumptions C137_injective.

(** transform_keys! leaves the same values of the same keys (its order may be another, as in Ruby), also if new keys are old keys of other pairs. *)
Theorem C137_transform_keys_bang : forall t blk h, good h -> t <> None \/ blk <> None ->
  exists h', transform_keys_bang t blk h = Some h' /\ good h' /\ forall m, fetch h' m = last_of (new_key t blk) h m.
Proof. exact (bang_ok). Qed.
Example C137_transform_keys_bang_example : transform_keys_bang None (Some (fun k => k + 1)) [(1, VInt 5); (2, VInt 6); (3, VInt 7); (4, VInt 8)] = Some [(2, VInt 5); (3, VInt 6); (4, VInt 7); (5, VInt 8)] /\ transform_keys_bang (Some [(1, 9); (2, 4)]) None [(1, VInt 5); (2, VInt 6); (3, VInt 7); (4, VInt 8)] = Some [(4, VInt 8); (9, VInt 5); (3, VInt 7)] /\ transform_keys_bang (Some [(1, 2); (2, 1)]) None [(1, VInt 5); (2, VInt 6)] = Some [(2, VInt 5); (1, VInt 6)] /\ transform_keys_bang None None [] = None.
Proof. repeat split; reflexivity. Qed.
Print Assumptions C137_transform_keys_bang.

(** transform_values replaces every value and leaves the keys. *)
Theorem C137_transform_values : forall f h, transform_values f h = map (fun e => (fst e, f (snd e))) h.
Proof. exact (transform_values_ok). Qed.
Example C137_transform_values_example : transform_values (fun v => VHash [(KSym 1, v)]) [(1, VInt 5); (2, VNil)] = [(1, VHash [(KSym 1, VInt 5)]); (2, VHash [(KSym 1, VNil)])].
Proof. repeat split; reflexivity. Qed.
Print Assumptions C137_transform_values.

(** slice has the given keys that are there, with their values, in the order given. *)
Theorem C137_slice : forall h ks,
  (forall m, fetch (slice h ks) m = if mem m ks then fetch h m else None) /\
  keys (slice h ks) = firsts [] (filter (has h) ks).
Proof. exact (slice_ok). Qed.
Example C137_slice_example : slice [(1, VInt 5); (2, VInt 6); (3, VInt 7); (4, VInt 8)] [3; 7; 1; 3] = [(3, VInt 7); (1, VInt 5)] /\ slice [(1, VNil)] [1] = [(1, VNil)].
Proof. repeat split; reflexivity. Qed.
Print Assumptions C137_slice.

(** except has all the other pairs in their order. *)
Theorem C137_except : forall ks h, except h ks = filter (fun e => negb (mem (fst e) ks)) h.
Proof. exact (except_ok). Qed.
Example C137_except_example : except [(1, VInt 5); (2, VInt 6); (3, VInt 7); (4, VInt 8)] [3; 7; 1; 3] = [(2, VInt 6); (4, VInt 8)].
Proof. repeat split; reflexivity. Qed.
Print Assumptions C137_except.

(** compact has the pairs whose value is not nil. *)
Theorem C137_compact : forall h, good h -> compact h = filter (fun e => negb (is_nil (snd e))) h.
Proof. exact (compact_ok). Qed.
Example C137_compact_example : compact [(1, VNil); (2, VInt 6); (3, VNil); (4, VObj 1)] = [(2, VInt 6); (4, VObj 1)].
Proof. repeat split; reflexivity. Qed.
Print Assumptions C137_compact.

(** compact! leaves these pairs, and answers nil if nothing was nil. *)
Theorem C137_compact_bang : forall h, good h ->
  compact_bang h = if existsb (fun e => is_nil (snd e)) h then Some (filter (fun e => negb (is_nil (snd e))) h) else None.
Proof. exact (compact_bang_ok). Qed.
Example C137_compact_bang_example : compact_bang [(1, VNil); (2, VInt 6); (3, VNil)] = Some [(2, VInt 6)] /\ compact_bang [(2, VInt 6)] = None.
Proof. repeat split; reflexivity. Qed.
Print Assumptions C137_compact_bang.

(** rehash of distinct keys changes nothing. *)
Theorem C137_rehash : forall h, good h -> rehash h = h.
Proof. exact (rehash_ok). Qed.
Example C137_rehash_example : rehash [(1, VInt 5); (2, VInt 6); (3, VInt 7); (4, VInt 8)] = [(1, VInt 5); (2, VInt 6); (3, VInt 7); (4, VInt 8)].
Proof. repeat split; reflexivity. Qed.
Print Assumptions C137_rehash.

(** C138. min_by with a block that answers Integers is the first entry with the least value. Missing: nil (refuted below). *)
Theorem C138_min_by_partial : forall g h, h <> [] -> exists e, min_by (fun x => Some (g x)) h = Val (Some e) /\ least g h e.
Proof. exact (min_by_ok). Qed.
Example C138_min_by_example : min_by (fun e => Some (fst e mod 3)) [(5, VNil); (4, VInt 1); (1, VInt 2)] = Val (Some (4, VInt 1)) /\ min_by (fun e => Some (fst e)) [] = Val None.
Proof. repeat split; reflexivity. Qed.
Print Assumptions C138_min_by_partial.

(** It is Ruby's min_by then. Missing: nil. *)
Theorem C138_min_by_ruby_partial : forall g h, min_by (fun x => Some (g x)) h = ruby_min_by (fun x => Some (g x)) h.
Proof. exact (min_by_ruby). Qed.
Example C138_min_by_ruby_example : ruby_min_by (fun e => Some (fst e mod 3)) [(5, VNil); (4, VInt 1); (1, VInt 2)] = Val (Some (4, VInt 1)).
Proof. repeat split; reflexivity. Qed.
Print Assumptions C138_min_by_ruby_partial.

(** False: if the block answers nil for all entries, min_by is the last entry. Ruby answers the first. *)
Theorem C138_min_nil_refuted : ~ (forall f h, good h -> min_by f h = ruby_min_by f h).
Proof. exact (min_nil_bad). Qed.
Example C138_min_nil_example : min_by (fun _ => None) [(1, VInt 5); (2, VInt 6)] = Val (Some (2, VInt 6)) /\ ruby_min_by (fun _ => None) [(1, VInt 5); (2, VInt 6)] = Val (Some (1, VInt 5)).
Proof. repeat split; reflexivity. Qed.
Print Assumptions C138_min_nil_refuted.

(** False: nil followed by Integers is taken for no value. Ruby raises ArgumentError. *)
Theorem C138_min_mixed_refuted : ~ (forall f h v, good h -> min_by f h = Val v -> ruby_min_by f h = Val v).
Proof. exact (min_mixed_bad). Qed.
Example C138_min_mixed_example : min_by (fun e => if fst e =? 1 then None else Some 0) [(1, VInt 5); (2, VInt 6)] = Val (Some (2, VInt 6)) /\ min_by (fun e => if fst e =? 2 then None else Some 0) [(1, VInt 5); (2, VInt 6)] = Raise NoMethod /\ ruby_min_by (fun e => if fst e =? 1 then None else Some 0) [(1, VInt 5); (2, VInt 6)] = Raise ArgErr.
Proof. repeat split; reflexivity. Qed.
Print Assumptions C138_min_mixed_refuted.
