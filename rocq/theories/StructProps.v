(** C134-C135: Struct. *)
From Coq Require Import ZArith List Bool.
From Verif Require Import StructModel StructSpec StructProofs StructBadProofs.
Import ListNotations.
Local Open Scope Z_scope.

(** C134. new when keyword_init: is not given, or is true and the class is the one that Struct.new made, and all keys are Symbols: the slots, and the errors. Missing: subclasses with keyword_init: true, keyword_init: false (next), String keys (refuted below). *)
Theorem C134_new_partial : forall c pos kw, (kwinit c = Some true /\ direct c = true) \/ kwinit c = None -> symbol_args pos kw ->
  initialize c pos kw = ruby_new c pos kw.
Proof. exact (new_ok). Qed.
Example C134_new_example : initialize (mkC [1; 2; 3] None true) [VInt 5; VInt 6] [] = Val [VInt 5; VInt 6; VNil] /\ initialize (mkC [1; 2] None true) [] [(KSym 2, VInt 6)] = Val [VNil; VInt 6] /\ initialize (mkC [1; 2] None true) [VInt 5] [(KSym 2, VInt 6)] = Val [VInt 5; VHash [(KSym 2, VInt 6)]] /\ initialize (mkC [1; 2] None true) [VInt 5; VNil; VNil] [] = Raise ArgErr /\ initialize (mkC [1; 2] None true) [] [(KSym 3, VNil)] = Raise ArgErr /\ initialize (mkC [1; 2] (Some true) true) [VInt 5] [] = Raise ArgErr /\ initialize (mkC [1; 2] (Some true) true) [VHash [(KSym 1, VInt 5)]] [] = Val [VInt 5; VNil] /\ initialize (mkC [1; 2] None true) [VHash [(KSym 1, VInt 5)]] [] = Val [VHash [(KSym 1, VInt 5)]; VNil].
Proof. repeat split; reflexivity. Qed.
Print Assumptions C134_new_partial.

(** new with keyword_init: false, unless there are only keywords. Missing: only keywords (refuted below). *)
Theorem C134_new_false_partial : forall c pos kw, kwinit c = Some false -> kw = [] \/ pos <> [] ->
  initialize c pos kw = ruby_new c pos kw.
Proof. exact (new_false_ok). Qed.
Example C134_new_false_example : initialize (mkC [1; 2] (Some false) true) [VInt 5] [] = Val [VInt 5; VNil] /\ initialize (mkC [1; 2] (Some false) true) [VInt 5] [(KSym 2, VInt 6)] = Val [VInt 5; VHash [(KSym 2, VInt 6)]] /\ initialize (mkC [1] (Some false) true) [VInt 5; VInt 6] [] = Raise ArgErr.
Proof. repeat split; reflexivity. Qed.
Print Assumptions C134_new_false_partial.

(** new makes as many slots as the class has members, for all classes and arguments. *)
Theorem C134_new_length : forall c pos kw vs, initialize c pos kw = Val vs -> length vs = length (members c).
Proof. exact (new_length). Qed.
Example C134_new_length_example : initialize (mkC [1; 2; 3] (Some false) false) [VInt 5] [] = Val [VInt 5; VNil; VNil].
Proof. repeat split; reflexivity. Qed.
Print Assumptions C134_new_length.

(** False: with keyword_init: false, keywords fill members. Ruby makes a Hash of them. *)
Theorem C134_keyword_init_false_refuted : ~ (forall c pos kw, direct c = true -> symbol_args pos kw ->
  initialize c pos kw = ruby_new c pos kw).
Proof. exact (kw_false_bad). Qed.
Example C134_keyword_init_false_example : initialize (mkC [1; 2] (Some false) true) [] [(KSym 1, VInt 5)] = Val [VInt 5; VNil] /\ ruby_new (mkC [1; 2] (Some false) true) [] [(KSym 1, VInt 5)] = Val [VHash [(KSym 1, VInt 5)]; VNil].
Proof. repeat split; reflexivity. Qed.
Print Assumptions C134_keyword_init_false_refuted.

(** False: a subclass does not inherit keyword_init: true, so that it takes positional arguments. Ruby raises ArgumentError. *)
Theorem C134_inherited_refuted : ~ (forall c pos kw, kwinit c <> Some false -> symbol_args pos kw ->
  initialize c pos kw = ruby_new c pos kw).
Proof. exact (inherited_bad). Qed.
Example C134_inherited_example : initialize (mkC [1; 2] (Some true) false) [VInt 5] [] = Val [VInt 5; VNil] /\ ruby_new (mkC [1; 2] (Some true) false) [VInt 5] [] = Raise ArgErr.
Proof. repeat split; reflexivity. Qed.
Print Assumptions C134_inherited_refuted.

(** False: String keys are ignored. Ruby sets the member of that name. *)
Theorem C134_string_keys_refuted : ~ (forall c kw, direct c = true -> kwinit c = None ->
  initialize c [] kw = ruby_new c [] kw).
Proof. exact (string_keys_bad). Qed.
Example C134_string_keys_example : initialize (mkC [1; 2] None true) [] [(KStr 1, VInt 5)] = Val [VNil; VNil] /\ ruby_new (mkC [1; 2] None true) [] [(KStr 1, VInt 5)] = Val [VInt 5; VNil].
Proof. repeat split; reflexivity. Qed.
Print Assumptions C134_string_keys_refuted.

(** False: with keyword_init: true, String keys raise ArgumentError. Ruby sets the member of that name. *)
Theorem C134_string_keys_init_refuted : ~ (forall c kw, direct c = true -> kwinit c = Some true ->
  initialize c [] kw = ruby_new c [] kw).
Proof. exact (string_keys_init_bad). Qed.
Example C134_string_keys_init_example : initialize (mkC [1; 2] (Some true) true) [] [(KStr 1, VInt 5)] = Raise ArgErr /\ ruby_new (mkC [1; 2] (Some true) true) [] [(KStr 1, VInt 5)] = Val [VInt 5; VNil].
Proof. repeat split; reflexivity. Qed.
Print Assumptions C134_string_keys_init_refuted.

(** C135. [] of all Integers and names, when no reader is redefined and no member is named size. Missing: Floats, those objects (refuted below). *)
Theorem C135_aref_partial : forall s k, wf s -> plain s -> not_float k -> aref s k = ruby_aref s k.
Proof. exact (aref_ok). Qed.
Example C135_aref_example : map (aref (mkO [1; 2; 3] [VInt 5; VInt 6; VNil] (fun _ => None) false)) [IInt 0; IInt (-2); IInt 2; IName 2] = [Val (VInt 5); Val (VInt 6); Val VNil; Val (VInt 6)] /\ map (aref (mkO [1; 2; 3] [VInt 5; VInt 6; VNil] (fun _ => None) false)) [IInt 3; IInt (-4); IName 4; IObj] = [Raise IndexErr; Raise IndexErr; Raise NameErr; Raise TypeErr].
Proof. repeat split; reflexivity. Qed.
Print Assumptions C135_aref_partial.

(** []= writes the slot that the index means and nothing else. Missing: Floats; frozen objects are below. *)
Theorem C135_aset_partial : forall s k v, wf s -> plain s -> not_float k -> frozen s = false ->
  aset s k v = bind (ruby_aset s k v) (fun l => Val (mkO (names s) l (over s) (frozen s))).
Proof. exact (aset_ok). Qed.
Example C135_aset_example : aset (mkO [1; 2; 3] [VInt 5; VInt 6; VNil] (fun _ => None) false) (IInt (-1)) (VInt 7) = Val (mkO [1; 2; 3] [VInt 5; VInt 6; VInt 7] (fun _ => None) false) /\ aset (mkO [1; 2; 3] [VInt 5; VInt 6; VNil] (fun _ => None) false) (IName 1) VNil = Val (mkO [1; 2; 3] [VNil; VInt 6; VNil] (fun _ => None) false) /\ aset (mkO [1; 2; 3] [VInt 5; VInt 6; VNil] (fun _ => None) false) (IInt 3) VNil = Raise IndexErr.
Proof. repeat split; reflexivity. Qed.
Print Assumptions C135_aset_partial.

(** []= of a frozen object raises. *)
Theorem C135_aset_frozen : forall s k v, frozen s = true -> aset s k v = Raise FrozenErr.
Proof. exact (aset_frozen). Qed.
Example C135_aset_frozen_example : aset (mkO [1] [VNil] (fun _ => None) true) (IInt 0) (VInt 7) = Raise FrozenErr.
Proof. repeat split; reflexivity. Qed.
Print Assumptions C135_aset_frozen.

(** After []=, [] of every index of the same place reads the new value and of other places the old one. Missing: Floats. *)
Theorem C135_aset_aref_partial : forall s k v s' k', wf s -> plain s -> not_float k -> not_float k' -> aset s k v = Val s' ->
  aref s' k' = bind (ruby_pos s k') (fun q =>
    match ruby_pos s k with
    | Val p => Val (if Nat.eqb q p then v else nth q (slots s) VNil)
    | Raise e => Raise e
    end).
Proof. exact (aset_aref). Qed.
Example C135_aset_aref_example : bind (aset (mkO [1; 2; 3] [VInt 5; VInt 6; VNil] (fun _ => None) false) (IName 2) (VInt 7)) (fun s => aref s (IInt (-2))) = Val (VInt 7) /\ bind (aset (mkO [1; 2; 3] [VInt 5; VInt 6; VNil] (fun _ => None) false) (IName 2) (VInt 7)) (fun s => aref s (IInt 0)) = Val (VInt 5).
Proof. repeat split; reflexivity. Qed.
Print Assumptions C135_aset_aref_partial.

(** to_a is the slots. Missing: redefined readers (refuted below). *)
Theorem C135_to_a_partial : forall s, wf s -> plain s -> to_a s = slots s.
Proof. exact (to_a_ok). Qed.
Example C135_to_a_example : to_a (mkO [1; 2; 3] [VInt 5; VInt 6; VNil] (fun _ => None) false) = [VInt 5; VInt 6; VNil].
Proof. repeat split; reflexivity. Qed.
Print Assumptions C135_to_a_partial.

(** to_h pairs the members with the slots. Missing: redefined readers. *)
Theorem C135_to_h_partial : forall s, wf s -> plain s -> to_h s = combine (names s) (slots s).
Proof. exact (to_h_ok). Qed.
Example C135_to_h_example : to_h (mkO [1; 2; 3] [VInt 5; VInt 6; VNil] (fun _ => None) false) = [(1, VInt 5); (2, VInt 6); (3, VNil)].
Proof. repeat split; reflexivity. Qed.
Print Assumptions C135_to_h_partial.

(** values_at of every Range that is not both endless and exclusive. Missing: those (refuted below). *)
Theorem C135_values_at_partial : forall s b e excl, wf s -> plain s -> (e = None -> excl = false) ->
  values_range s b e excl = ruby_range s b e excl.
Proof. exact (values_range_ok). Qed.
Example C135_values_at_example : values_range (mkO [1; 2; 3] [VInt 5; VInt 6; VNil] (fun _ => None) false) (Some 1) (Some 4) false = Val [VInt 6; VNil; VNil; VNil] /\ values_range (mkO [1; 2; 3] [VInt 5; VInt 6; VNil] (fun _ => None) false) None (Some (-1)) true = Val [VInt 5; VInt 6] /\ values_range (mkO [1; 2; 3] [VInt 5; VInt 6; VNil] (fun _ => None) false) (Some (-2)) None false = Val [VInt 6; VNil] /\ values_range (mkO [1; 2; 3] [VInt 5; VInt 6; VNil] (fun _ => None) false) (Some (-4)) None false = Raise RangeErr /\ values_range (mkO [1; 2; 3] [VInt 5; VInt 6; VNil] (fun _ => None) false) (Some 5) (Some 6) false = Val [VNil; VNil] /\ values_range (mkO [1; 2; 3] [VInt 5; VInt 6; VNil] (fun _ => None) false) (Some 2) (Some 0) false = Val [].
Proof. repeat split; reflexivity. Qed.
Print Assumptions C135_values_at_partial.

(** False: a Float index raises TypeError. Ruby truncates it. *)
Theorem C135_float_refuted : ~ (forall s k, wf s -> plain s -> aref s k = ruby_aref s k).
Proof. exact (float_bad). Qed.
Example C135_float_example : aref (mkO [1; 2; 3] [VInt 5; VInt 6; VNil] (fun _ => None) false) (IFloat 1) = Raise TypeErr /\ ruby_aref (mkO [1; 2; 3] [VInt 5; VInt 6; VNil] (fun _ => None) false) (IFloat 1) = Val (VInt 6).
Proof. repeat split; reflexivity. Qed.
Print Assumptions C135_float_refuted.

(** False: a redefined reader changes to_a. Ruby reads the slots. *)
Theorem C135_override_refuted : ~ (forall s, wf s -> ~ In 0 (names s) -> to_a s = slots s).
Proof. exact (override_bad). Qed.
Example C135_override_example : to_a (mkO [1; 2] [VInt 5; VInt 6] (fun m => if m =? 1 then Some (fun _ => VInt 7) else None) false) = [VInt 7; VInt 6].
Proof. repeat split; reflexivity. Qed.
Print Assumptions C135_override_refuted.

(** False: the value of a member named size is taken for the number of members. *)
Theorem C135_size_member_refuted : ~ (forall s k, wf s -> (forall m, over s m = None) -> not_float k -> aref s k = ruby_aref s k).
Proof. exact (size_member_bad). Qed.
Example C135_size_member_example : aref (mkO [0; 2] [VInt 1; VInt 6] (fun _ => None) false) (IInt 1) = Raise IndexErr /\ aref (mkO [0; 2] [VNil; VInt 6] (fun _ => None) false) (IInt 1) = Raise ArgErr /\ aref (mkO [0; 2] [VNil; VInt 6] (fun _ => None) false) (IInt (-1)) = Raise TypeErr.
Proof. repeat split; reflexivity. Qed.
Print Assumptions C135_size_member_refuted.

(** False: values_at of an endless exclusive Range leaves out the last value. *)
Theorem C135_endless_refuted : ~ (forall s b e excl, wf s -> plain s -> values_range s b e excl = ruby_range s b e excl).
Proof. exact (endless_bad). Qed.
Example C135_endless_example : values_range (mkO [1; 2; 3] [VInt 5; VInt 6; VNil] (fun _ => None) false) (Some 0) None true = Val [VInt 5; VInt 6] /\ ruby_range (mkO [1; 2; 3] [VInt 5; VInt 6; VNil] (fun _ => None) false) (Some 0) None true = Val [VInt 5; VInt 6; VNil].
Proof. repeat split; reflexivity. Qed.
Print Assumptions C135_endless_refuted.

(** False: []= of a frozen object with an index out of range raises FrozenError. Ruby raises IndexError. *)
Theorem C135_frozen_order_refuted : ~ (forall s k v, wf s -> plain s -> not_float k ->
  aset s k v = bind (ruby_aset s k v) (fun l => Val (mkO (names s) l (over s) (frozen s)))).
Proof. exact (frozen_order_bad). Qed.
Example C135_frozen_order_example : aset (mkO [1; 2] [VInt 5; VInt 6] (fun _ => None) true) (IInt 2) VNil = Raise FrozenErr /\ ruby_aset (mkO [1; 2] [VInt 5; VInt 6] (fun _ => None) true) (IInt 2) VNil = Raise IndexErr.
Proof. repeat split; reflexivity. Qed.
Print Assumptions C135_frozen_order_refuted.
