(** What does not hold of Struct. *)
From Coq Require Import ZArith List Bool Lia.
From Verif Require Import StructModel StructSpec.
Import ListNotations.
Local Open Scope Z_scope.

Lemma no_hash_symbols : forall kw, symbols kw -> symbol_args [] kw.
Proof. intros kw H; split; [exact H | intros h []]. Qed.

Lemma symbols_one : forall m v, symbols [(KSym m, v)].
Proof. intros m v k w [H|[]]; inversion H; exists m; reflexivity. Qed.

Lemma kw_false_bad : ~ (forall c pos kw, direct c = true -> symbol_args pos kw ->
  initialize c pos kw = ruby_new c pos kw).
Proof.
  intros H. specialize (H (mkC [1; 2] (Some false) true) [] [(KSym 1, VInt 5)] eq_refl
    (no_hash_symbols _ (symbols_one 1 (VInt 5)))). discriminate H.
Qed.

Lemma inherited_bad : ~ (forall c pos kw, kwinit c <> Some false -> symbol_args pos kw ->
  initialize c pos kw = ruby_new c pos kw).
Proof.
  intros H. specialize (H (mkC [1; 2] (Some true) false) [VInt 5] []).
  assert (A : symbol_args [VInt 5] []).
  { split; [intros k v [] | intros h [E|[]]; discriminate E]. }
  assert (B : Some true <> Some false) by discriminate.
  specialize (H B A). discriminate H.
Qed.

Lemma string_keys_bad : ~ (forall c kw, direct c = true -> kwinit c = None ->
  initialize c [] kw = ruby_new c [] kw).
Proof.
  intros H. specialize (H (mkC [1; 2] None true) [(KStr 1, VInt 5)] eq_refl eq_refl). discriminate H.
Qed.

Lemma string_keys_init_bad : ~ (forall c kw, direct c = true -> kwinit c = Some true ->
  initialize c [] kw = ruby_new c [] kw).
Proof.
  intros H. specialize (H (mkC [1; 2] (Some true) true) [(KStr 1, VInt 5)] eq_refl eq_refl). discriminate H.
Qed.

Lemma nodup12 : NoDup [1; 2].
Proof. repeat constructor; cbn; intuition lia. Qed.

Lemma float_bad : ~ (forall s k, wf s -> plain s -> aref s k = ruby_aref s k).
Proof.
  intros H. specialize (H (mkO [1; 2] [VInt 5; VInt 6] (fun _ => None) false) (IFloat 1)).
  assert (W : wf (mkO [1; 2] [VInt 5; VInt 6] (fun _ => None) false)) by (split; [exact nodup12 | reflexivity]).
  assert (P : plain (mkO [1; 2] [VInt 5; VInt 6] (fun _ => None) false))
    by (split; [reflexivity | cbn; intuition lia]).
  specialize (H W P). discriminate H.
Qed.

Lemma override_bad : ~ (forall s, wf s -> ~ In 0 (names s) -> to_a s = slots s).
Proof.
  intros H. specialize (H (mkO [1; 2] [VInt 5; VInt 6] (fun m => if m =? 1 then Some (fun _ => VInt 7) else None) false)).
  assert (P : ~ In 0 [1; 2]) by (cbn; intuition lia).
  specialize (H (conj nodup12 eq_refl) P). discriminate H.
Qed.

Lemma size_member_bad : ~ (forall s k, wf s -> (forall m, over s m = None) -> not_float k -> aref s k = ruby_aref s k).
Proof.
  intros H. specialize (H (mkO [0; 2] [VInt 1; VInt 6] (fun _ => None) false) (IInt 1)).
  assert (W : wf (mkO [0; 2] [VInt 1; VInt 6] (fun _ => None) false))
    by (split; [repeat constructor; cbn; intuition lia | reflexivity]).
  specialize (H W (fun _ => eq_refl) I). discriminate H.
Qed.

Lemma endless_bad : ~ (forall s b e excl, wf s -> plain s -> values_range s b e excl = ruby_range s b e excl).
Proof.
  intros H. specialize (H (mkO [1; 2] [VInt 5; VInt 6] (fun _ => None) false) (Some 0) None true).
  assert (W : wf (mkO [1; 2] [VInt 5; VInt 6] (fun _ => None) false)) by (split; [exact nodup12 | reflexivity]).
  assert (P : plain (mkO [1; 2] [VInt 5; VInt 6] (fun _ => None) false))
    by (split; [reflexivity | cbn; intuition lia]).
  specialize (H W P). discriminate H.
Qed.

Lemma frozen_order_bad : ~ (forall s k v, wf s -> plain s -> not_float k ->
  aset s k v = bind (ruby_aset s k v) (fun l => Val (mkO (names s) l (over s) (frozen s)))).
Proof.
  intros H. specialize (H (mkO [1; 2] [VInt 5; VInt 6] (fun _ => None) true) (IInt 2) VNil).
  assert (W : wf (mkO [1; 2] [VInt 5; VInt 6] (fun _ => None) true)) by (split; [exact nodup12 | reflexivity]).
  assert (P : plain (mkO [1; 2] [VInt 5; VInt 6] (fun _ => None) true))
    by (split; [reflexivity | cbn; intuition lia]).
  specialize (H W P I). discriminate H.
Qed.
