(** Proofs about Array's iterators with blocks that change the Array. *)
From Coq Require Import List Bool Arith Lia.
From Verif Require Import AmutModel AmutSpec.
Import ListNotations.

Lemma put_app : forall (R : Type) (out : list R) pad k y,
  put_at R (out ++ repeat pad k) (length out) y = (out ++ [y]) ++ repeat pad (k - 1).
Proof.
  intros R out pad k y; induction out as [|x r IH]; cbn.
  - destruct k as [|k]; cbn; [reflexivity | rewrite Nat.sub_0_r; reflexivity].
  - rewrite IH; reflexivity.
Qed.

Lemma map_loop_ok : forall (S V R : Type) (nil : V) (pad : R) blk n (s : S) l out len,
  map_loop S V R nil blk n s l (length out) (out ++ repeat pad (len - length out))
  = match ruby_map_loop S V R nil blk n s l (length out) out with
    | Some (s', l', out') => Some (s', l', out' ++ repeat pad (len - length out'))
    | None => None
    end.
Proof.
  intros S V R nil pad blk n; induction n as [|n IH]; intros s l out len; [reflexivity|]. cbn -[Nat.ltb].
  destruct (length out <? length l); [|reflexivity]. unfold at_.
  destruct (blk s l (nth (length out) l nil)) as [[s' l'] y].
  rewrite put_app. specialize (IH s' l' (out ++ [y]) len).
  rewrite app_length in IH; cbn [length] in IH.
  replace (len - length out - 1) with (len - (length out + 1)) by lia. exact IH.
Qed.

(** map: Ruby's answer, filled up with nil to the old length. *)
Lemma map_ok : forall (S V R : Type) (nil : V) (pad : R) blk n (s : S) l,
  map_ S V R nil pad blk n s l
  = match ruby_map S V R nil blk n s l with
    | Some (s', l', out) => Some (s', l', out ++ repeat pad (length l - length out))
    | None => None
    end.
Proof.
  intros S V R nil pad blk n s l. pose proof (map_loop_ok S V R nil pad blk n s l [] (length l)) as H.
  cbn [length app] in H. rewrite Nat.sub_0_r in H. exact H.
Qed.

Lemma ruby_map_length : forall (S V R : Type) (nil : V) (blk : S -> list V -> V -> S * list V * R) n s l out s' l' out',
  no_shorter_ans blk -> ruby_map_loop S V R nil blk n s l (length out) out = Some (s', l', out') -> length l <= length out'.
Proof.
  intros S V R nil blk n; induction n as [|n IH]; intros s l out s' l' out' N H; [discriminate|]. cbn -[Nat.ltb] in H.
  destruct (Nat.ltb_spec (length out) (length l)) as [L|L].
  - specialize (N s l (nth (length out) l nil)) as Q.
    destruct (blk s l (nth (length out) l nil)) as [[s1 l1] y]. cbn in Q.
    replace (length out + 1) with (length (out ++ [y])) in H by (rewrite app_length; cbn; lia).
    specialize (IH s1 l1 (out ++ [y]) s' l' out' N H). lia.
  - inversion H; subst; exact L.
Qed.

Lemma map_same : forall (S V R : Type) (nil : V) (pad : R) (blk : S -> list V -> V -> S * list V * R) n s l,
  no_shorter_ans blk -> map_ S V R nil pad blk n s l = ruby_map S V R nil blk n s l.
Proof.
  intros S V R nil pad blk n s l N. rewrite map_ok.
  destruct (ruby_map S V R nil blk n s l) as [[[s' l'] out]|] eqn:E; [|reflexivity].
  pose proof (ruby_map_length S V R nil blk n s l [] s' l' out N E) as Q.
  replace (length l - length out) with 0 by lia. cbn. rewrite app_nil_r; reflexivity.
Qed.

Lemma rev_loop_ok : forall (S V : Type) (nil : V) (blk : S -> list V -> V -> S * list V) k n s l,
  no_shorter blk -> k <= n -> k <= length l -> rev_loop S V nil blk k s l = ruby_rev_loop S V nil blk n k s l.
Proof.
  intros S V nil blk k; induction k as [|i IH]; intros n s l N Kn Kl.
  - destruct n; reflexivity.
  - destruct n as [|n]; [lia|]. cbn. unfold at_. specialize (N s l (nth i l nil)) as Q.
    destruct (blk s l (nth i l nil)) as [s' l']. cbn in Q.
    rewrite Nat.min_l by lia. rewrite (IH n s' l' N) by lia. reflexivity.
Qed.

Lemma reverse_each_ok : forall (S V : Type) (nil : V) (blk : S -> list V -> V -> S * list V) s l,
  no_shorter blk -> reverse_each S V nil blk s l = ruby_reverse_each S V nil blk s l.
Proof. intros S V nil blk s l N; apply rev_loop_ok; auto. Qed.

(** Two rounds for each element are enough. *)
Lemma rindex_loop_ok : forall (S V : Type) (nil : V) blk m n k (s : S) l, k <= m -> 2 * m + 2 <= n ->
  rindex_loop S V nil blk n k s l = Some (ruby_rindex_loop S V nil blk m (Nat.min k (length l)) s l).
Proof.
  intros S V nil blk m; induction m as [|m IH]; intros n k s l K N.
  - destruct n as [|n]; [lia|]. assert (k = 0) by lia; subst k. reflexivity.
  - assert (G : forall n i s l, i <= m -> i < length l -> 2 * m + 3 <= n ->
      rindex_loop S V nil blk n (Datatypes.S i) s l = Some (ruby_rindex_loop S V nil blk (Datatypes.S m) (Datatypes.S i) s l)).
    { clear n k s l K N. intros n i s l I L N. destruct n as [|n]; [lia|]. cbn -[Nat.leb Nat.min].
      destruct (Nat.leb_spec (length l) i); [lia|]. unfold at_.
      destruct (blk s l (nth i l nil)) as [[s' l'] [|]]; [reflexivity|]. apply IH; lia. }
    destruct k as [|i].
    + destruct n as [|n]; [lia|]. reflexivity.
    + destruct (Nat.lt_ge_cases i (length l)) as [L|L].
      * rewrite Nat.min_l by lia. apply G; lia.
      * rewrite Nat.min_r by lia. destruct n as [|n]; [lia|]. cbn -[ruby_rindex_loop].
        destruct (Nat.leb_spec (length l) i); [|lia].
        destruct (length l) as [|j] eqn:E.
        -- destruct n; [lia|]. reflexivity.
        -- apply G; lia.
Qed.

Lemma rindex_ok : forall (S V : Type) (nil : V) blk n (s : S) l, 2 * length l + 2 <= n ->
  rindex S V nil blk n s l = Some (ruby_rindex S V nil blk s l).
Proof.
  intros S V nil blk n s l N; unfold rindex, ruby_rindex.
  rewrite (rindex_loop_ok S V nil blk (length l) n (length l) s l) by lia. rewrite Nat.min_id; reflexivity.
Qed.

Lemma drop_loop_ok : forall (S V : Type) (nil : V) (blk : S -> list V -> V -> S * list V * bool) n s l i,
  no_shorter_ans blk -> i <= length l ->
  drop_loop S V nil blk n s l i
  = match ruby_drop_loop S V nil blk n s l i with Some (s', l', r) => Some (s', l', Some r) | None => None end.
Proof.
  intros S V nil blk n; induction n as [|n IH]; intros s l i N I; [reflexivity|]. cbn -[Nat.ltb]. unfold at_.
  destruct (Nat.ltb_spec i (length l)) as [L|L].
  - specialize (N s l (nth i l nil)) as Q. destruct (blk s l (nth i l nil)) as [[s' l'] [|]]; cbn in Q.
    + apply IH; [exact N | lia].
    + destruct (Nat.leb_spec i (length l')); [reflexivity | lia].
  - destruct (Nat.leb_spec i (length l)); [reflexivity | lia].
Qed.

Lemma drop_while_ok : forall (S V : Type) (nil : V) (blk : S -> list V -> V -> S * list V * bool) n s l,
  no_shorter_ans blk ->
  drop_while S V nil blk n s l
  = match ruby_drop_while S V nil blk n s l with Some (s', l', r) => Some (s', l', Some r) | None => None end.
Proof. intros S V nil blk n s l N; apply drop_loop_ok; [exact N | lia]. Qed.

(** drop_while with any block: Ruby's rounds and Ruby's answer, or nil for an empty one. *)
Lemma drop_loop_any : forall (S V : Type) (nil : V) (blk : S -> list V -> V -> S * list V * bool) n s l i,
  match drop_loop S V nil blk n s l i, ruby_drop_loop S V nil blk n s l i with
  | Some (s1, l1, o), Some (s2, l2, r) => s1 = s2 /\ l1 = l2 /\ (o = Some r \/ (o = None /\ r = []))
  | None, None => True
  | _, _ => False
  end.
Proof.
  intros S V nil blk n; induction n as [|n IH]; intros s l i; [exact I|]. cbn -[Nat.ltb Nat.leb]. unfold at_.
  assert (E : forall m : list V, (if i <=? length m then Some (skipn i m) else None) = Some (skipn i m)
     \/ ((if i <=? length m then Some (skipn i m) else None) = None /\ skipn i m = [])).
  { intros m. destruct (Nat.leb_spec i (length m)); [left; reflexivity | right; split; [reflexivity | apply skipn_all2; lia]]. }
  destruct (Nat.ltb_spec i (length l)) as [L|L]; [|repeat split; apply E].
  destruct (blk s l (nth i l nil)) as [[s' l'] [|]]; [apply IH | repeat split; apply E].
Qed.
Lemma drop_while_any : forall (S V : Type) (nil : V) (blk : S -> list V -> V -> S * list V * bool) n s l,
  match drop_while S V nil blk n s l, ruby_drop_while S V nil blk n s l with
  | Some (s1, l1, o), Some (s2, l2, r) => s1 = s2 /\ l1 = l2 /\ (o = Some r \/ (o = None /\ r = []))
  | None, None => True
  | _, _ => False
  end.
Proof. intros S V nil blk n s l; apply drop_loop_any. Qed.

(** reverse_each gives as many elements to the block as there were, whatever the block does. *)
Lemma rev_loop_count : forall (S V : Type) (nil : V) blk k (s : S) l, length (snd (rev_loop S V nil blk k s l)) = k.
Proof.
  intros S V nil blk k; induction k as [|i IH]; intros s l; cbn; [reflexivity|].
  destruct (blk s l (at_ V nil l i)) as [s' l']. specialize (IH s' l').
  destruct (rev_loop S V nil blk i s' l') as [[s2 l2] log]. cbn in *. rewrite IH; reflexivity.
Qed.
Lemma reverse_each_count : forall (S V : Type) (nil : V) blk (s : S) l, length (snd (reverse_each S V nil blk s l)) = length l.
Proof. intros S V nil blk s l; apply rev_loop_count. Qed.

(* ------------------------------------------------------------------ *)
(** ** What does not hold *)

Lemma map_shrink_bad : ~ (forall (S V R : Type) (nil : V) (pad : R) blk n (s : S) l,
  map_ S V R nil pad blk n s l = ruby_map S V R nil blk n s l).
Proof.
  intros H. specialize (H unit nat nat 0 0 (fun s l v => (s, removelast l, v)) 5 tt [1; 2; 3; 4]). discriminate H.
Qed.

Lemma reverse_shrink_bad : ~ (forall (S V : Type) (nil : V) blk (s : S) l,
  reverse_each S V nil blk s l = ruby_reverse_each S V nil blk s l).
Proof.
  intros H. specialize (H unit nat 0 (fun s l v => (s, [])) tt [1; 2; 3]). discriminate H.
Qed.

Lemma drop_shrink_bad : ~ (forall (S V : Type) (nil : V) blk n (s : S) l r,
  drop_while S V nil blk n s l = Some r -> snd r <> None).
Proof.
  intros H. specialize (H unit nat 0 (fun s l v => (s, if v =? 2 then [] else l, v <? 2)) 5 tt [1; 2; 3] (tt, [], None) eq_refl).
  apply H; reflexivity.
Qed.
