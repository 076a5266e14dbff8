(** C136: Data. *)
From Coq Require Import ZArith List Bool.
From Verif Require Import StructModel StructSpec DataModel DataSpec DataProofs.
Import ListNotations.
Local Open Scope Z_scope.

(** C136. Keywords make an object if and only if they name every member and nothing else; Symbols and Strings name alike, and the last value counts. *)
Theorem C136_values : forall ms kw vs, all_named kw -> (data_values ms kw = Val vs <-> determines ms kw vs).
Proof. exact (values_ok). Qed.
Example C136_values_example : data_values [1; 2] [(KStr 2, VInt 6); (KSym 1, VInt 5)] = Val [VInt 5; VInt 6] /\ data_values [1; 2] [(KSym 1, VInt 5); (KSym 2, VInt 6); (KStr 1, VInt 7)] = Val [VInt 7; VInt 6] /\ data_values [1; 2] [(KSym 1, VNil); (KSym 2, VNil)] = Val [VNil; VNil].
Proof. repeat split; reflexivity. Qed.
Print Assumptions C136_values.

(** Otherwise ArgumentError is raised. *)
Theorem C136_values_error : forall ms kw, all_named kw -> (forall vs, ~ determines ms kw vs) -> data_values ms kw = Raise ArgErr.
Proof. exact (values_error). Qed.
Example C136_values_error_example : data_values [1; 2] [(KSym 1, VInt 5)] = Raise ArgErr /\ data_values [1] [(KSym 1, VInt 5); (KSym 2, VInt 6)] = Raise ArgErr /\ data_values [1] [] = Raise ArgErr.
Proof. repeat split; reflexivity. Qed.
Print Assumptions C136_values_error.

(** A key that is neither a Symbol nor a String raises TypeError. *)
Theorem C136_values_object : forall ms kw n v, In (KObj n, v) kw -> data_values ms kw = Raise TypeErr.
Proof. exact (values_object). Qed.
Example C136_values_object_example : data_values [1] [(KSym 2, VInt 5); (KObj 1, VNil)] = Raise TypeErr.
Proof. repeat split; reflexivity. Qed.
Print Assumptions C136_values_object.

(** new with the initialize of Data is Ruby's, for all arguments. Missing: a redefined initialize (refuted below). *)
Theorem C136_new_partial : forall ms args kw, NoDup ms -> data_new (base ms) args kw = ruby_data_new (base ms) args kw.
Proof. exact (data_new_ok). Qed.
Example C136_new_example : data_new (base [1; 2]) [] [(KSym 2, VInt 6); (KSym 1, VInt 5)] = Val [VInt 5; VInt 6] /\ map (fun a => data_new (base [1; 2]) a []) [[VInt 5]; [VInt 5; VInt 6; VNil]] = [Raise ArgErr; Raise ArgErr] /\ data_new (base [1; 2]) [VInt 5; VInt 6] [(KSym 1, VNil)] = Raise ArgErr /\ data_new (base []) [] [] = Val [].
Proof. repeat split; reflexivity. Qed.
Print Assumptions C136_new_partial.

(** As many positional arguments as members are their values. *)
Theorem C136_positional : forall ms args, NoDup ms -> length args = length ms -> data_new (base ms) args [] = Val args.
Proof. exact (positional). Qed.
Example C136_positional_example : data_new (base [1; 2]) [VInt 5; VNil] [] = Val [VInt 5; VNil].
Proof. repeat split; reflexivity. Qed.
Print Assumptions C136_positional.

(** new of the pairs of to_h is the same object. *)
Theorem C136_round_trip : forall ms slots, NoDup ms -> length slots = length ms ->
  data_new (base ms) [] (syms (data_h ms slots)) = Val slots.
Proof. exact (round_trip). Qed.
Example C136_round_trip_example : data_h [1; 2] [VInt 5; VInt 6] = [(1, VInt 5); (2, VInt 6)] /\ data_new (base [1; 2]) [] (syms (data_h [1; 2] [VInt 5; VInt 6])) = Val [VInt 5; VInt 6].
Proof. repeat split; reflexivity. Qed.
Print Assumptions C136_round_trip.

(** with changes the given members and no others. *)
Theorem C136_with : forall ms slots kw, NoDup ms -> length slots = length ms -> all_named kw -> known ms kw ->
  data_with (base ms) slots kw = Val (updated ms slots kw).
Proof. exact (with_ok). Qed.
Example C136_with_example : data_with (base [1; 2]) [VInt 5; VInt 6] [(KStr 2, VInt 7)] = Val [VInt 5; VInt 7] /\ data_with (base [1; 2]) [VInt 5; VInt 6] [] = Val [VInt 5; VInt 6] /\ data_with (base [1; 2]) [VInt 5; VInt 6] [(KSym 2, VInt 7); (KSym 1, VNil)] = Val [VNil; VInt 7].
Proof. repeat split; reflexivity. Qed.
Print Assumptions C136_with.

(** with raises ArgumentError for an unknown name. *)
Theorem C136_with_unknown : forall ms slots kw, NoDup ms -> length slots = length ms -> all_named kw -> ~ known ms kw ->
  data_with (base ms) slots kw = Raise ArgErr.
Proof. exact (with_unknown). Qed.
Example C136_with_unknown_example : data_with (base [1; 2]) [VInt 5; VInt 6] [(KSym 1, VInt 7); (KSym 3, VNil)] = Raise ArgErr /\ data_with (base [1; 2]) [VInt 5; VInt 6] [(KObj 3, VNil)] = Raise TypeErr.
Proof. repeat split; reflexivity. Qed.
Print Assumptions C136_with_unknown.

(** deconstruct_keys reads the keys before the first that is no member. *)
Theorem C136_deconstruct_keys : forall ms read keys, (forall k n, In k keys -> k <> KObj n) -> (length keys <= length ms)%nat ->
  deconstruct_keys ms read keys = Val (map (fun k => (k, read (kname k))) (leading ms keys)).
Proof. exact (dec_ok). Qed.
Example C136_deconstruct_keys_example : deconstruct_keys [1; 2; 3] (value (data_h [1; 2; 3] [VInt 5; VInt 6; VInt 7])) [KSym 3; KStr 1] = Val [(KSym 3, VInt 7); (KStr 1, VInt 5)] /\ deconstruct_keys [1; 2; 3] (value (data_h [1; 2; 3] [VInt 5; VInt 6; VInt 7])) [KSym 2; KSym 4; KSym 1] = Val [(KSym 2, VInt 6)] /\ deconstruct_keys [1; 2] (fun _ => VNil) [KSym 1; KObj 1] = Raise TypeErr /\ deconstruct_keys [1] (fun _ => VNil) [KSym 1] = Val [(KSym 1, VNil)].
Proof. repeat split; reflexivity. Qed.
Print Assumptions C136_deconstruct_keys.

(** More keys than members read nothing. *)
Theorem C136_deconstruct_many : forall ms read keys, (length ms < length keys)%nat -> deconstruct_keys ms read keys = Val [].
Proof. exact (dec_many). Qed.
Example C136_deconstruct_many_example : deconstruct_keys [1; 2] (fun _ => VNil) [KSym 1; KSym 2; KSym 1] = Val [].
Proof. repeat split; reflexivity. Qed.
Print Assumptions C136_deconstruct_many.

(** False: with an initialize that has defaults, fewer positional arguments raise ArgumentError. Ruby passes on those that are given. *)
Theorem C136_default_refuted : ~ (forall c args kw, NoDup (dmembers c) -> data_new c args kw = ruby_data_new c args kw).
Proof. exact (default_bad). Qed.
Example C136_default_example : data_new (mkD [1; 2] with_default) [VInt 5] [] = Raise ArgErr /\ ruby_data_new (mkD [1; 2] with_default) [VInt 5] [] = Val [VInt 5; VInt 0] /\ data_new (mkD [1; 2] with_default) [] [(KSym 1, VInt 5)] = Val [VInt 5; VInt 0].
Proof. repeat split; reflexivity. Qed.
Print Assumptions C136_default_refuted.

(** False: a redefined reader changes deconstruct_keys. Ruby reads the slots. *)
Theorem C136_override_refuted : ~ (forall ms slots read keys, NoDup ms -> length slots = length ms ->
  (length keys <= length ms)%nat -> (forall k n, In k keys -> k <> KObj n) ->
  deconstruct_keys ms read keys = Val (map (fun k => (k, value (data_h ms slots) (kname k))) (leading ms keys))).
Proof. exact (dec_override_bad). Qed.
Example C136_override_example : deconstruct_keys [1] (fun _ => VInt 6) [KSym 1] = Val [(KSym 1, VInt 6)].
Proof. repeat split; reflexivity. Qed.
Print Assumptions C136_override_refuted.
