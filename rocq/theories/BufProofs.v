From Coq Require Import List Bool ZArith Arith Lia.
From Verif Require Import BufModel BufSpec.
Import ListNotations.

Lemma get_lt h : forall i b, get h i = Some b -> i < length h.
Proof. induction h as [|c t IH]; intros i b; cbn; [discriminate|]. destruct (Nat.eqb_spec i (length t)); [lia|]. intros H. apply IH in H. lia. Qed.
Lemma get_some h : forall i, i < length h -> exists b, get h i = Some b.
Proof. induction h as [|c t IH]; intros i H; cbn in *; [lia|]. destruct (Nat.eqb_spec i (length t)); [eauto|]. apply IH. lia. Qed.
Lemma get_in h : forall i b, get h i = Some b -> In b h.
Proof. induction h as [|c t IH]; intros i b; cbn; [discriminate|]. destruct (i =? length t); [intros [= ->]; auto|]. intros H. right. apply (IH i), H. Qed.
Lemma get_fits h i b : Forall fits h -> get h i = Some b -> fits b.
Proof. intros H E. rewrite Forall_forall in H. apply H, (get_in h i b E). Qed.
Lemma put_len h : forall i b, length (put h i b) = length h.
Proof. induction h as [|c t IH]; intros i b; cbn; [reflexivity|]. destruct (i =? length t); cbn; [|rewrite IH]; reflexivity. Qed.
Lemma get_put h : forall i b j, get (put h i b) j = if (j =? i) && (i <? length h) then Some b else get h j.
Proof.
  induction h as [|c t IH]; intros i b j; cbn [put]; [cbn; rewrite andb_comm; reflexivity|]. cbn [length].
  destruct (Nat.eqb_spec i (length t)) as [->|N]; cbn [get].
  - replace (length t <? S (length t)) with true by (symmetry; apply Nat.ltb_lt; lia). rewrite andb_true_r. destruct (Nat.eqb_spec j (length t)); reflexivity.
  - rewrite put_len, IH. destruct (Nat.eqb_spec j (length t)) as [->|M].
    + destruct (Nat.eqb_spec (length t) i); [congruence|]. reflexivity.
    + destruct (j =? i); cbn [andb]; [|reflexivity]. replace (i <? S (length t)) with (i <? length t); [reflexivity|].
      destruct (Nat.ltb_spec i (length t)), (Nat.ltb_spec i (S (length t))); try reflexivity; lia.
Qed.
Lemma put_fits h i b : Forall fits h -> fits b -> Forall fits (put h i b).
Proof.
  intros H Hb. revert i. induction H as [|c t Hc Ht IH]; intros i; cbn; [constructor|]. destruct (i =? length t); constructor; auto.
Qed.
Lemma nth_cut l o n x : x < n -> nth_error (cut l o n) x = nth_error l (o + x).
Proof.
  unfold cut. revert o n x. induction l as [|a l IH]; intros o n x H.
  { rewrite skipn_nil, firstn_nil. destruct (o + x), x; reflexivity. }
  destruct o as [|o]; cbn [skipn plus nth_error].
  - revert x H. generalize (a :: l) as m. clear. induction n as [|n IHn]; intros m x H; [lia|]. destruct m as [|y m]; [destruct x; reflexivity|].
    destruct x as [|x]; [reflexivity|]. cbn. apply IHn. lia.
  - apply IH, H.
Qed.
Lemma cut_len l o n : o + n <= length l -> length (cut l o n) = n.
Proof. intros H. unfold cut. rewrite firstn_length, skipn_length. lia. Qed.
Lemma patch_len l o d : o + length d <= length l -> length (patch l o d) = length l.
Proof. intros H. unfold patch. rewrite !app_length, firstn_length, skipn_length. lia. Qed.
Lemma nth_patch l o d x : o + length d <= length l ->
  nth_error (patch l o d) x = if (o <=? x) && (x <? o + length d) then nth_error d (x - o) else nth_error l x.
Proof.
  intros H. unfold patch. destruct (Nat.leb_spec o x) as [L|L]; cbn [andb].
  - rewrite nth_error_app2 by (rewrite firstn_length; lia). rewrite firstn_length, Nat.min_l by lia.
    destruct (Nat.ltb_spec x (o + length d)) as [M|M].
    + rewrite nth_error_app1 by lia. reflexivity.
    + rewrite nth_error_app2 by lia. pose proof (nth_cut l (o + length d) (length l) (x - o - length d)) as N. unfold cut in N.
      destruct (Nat.lt_ge_cases (x - o - length d) (length l)) as [B|B].
      * specialize (N B). rewrite firstn_all2 in N by (rewrite skipn_length; lia). rewrite N. f_equal. lia.
      * rewrite !(proj2 (nth_error_None _ _)); [reflexivity| |rewrite skipn_length]; lia.
  - rewrite nth_error_app1 by (rewrite firstn_length; lia). rewrite <- (firstn_skipn o l) at 2. rewrite nth_error_app1 by (rewrite firstn_length; lia). reflexivity.
Qed.
Lemma set_nth_len ss : forall s l, length (set_nth ss s l) = length ss.
Proof. induction ss as [|x r IH]; intros [|s] l; cbn; auto. Qed.
Lemma nth_set ss : forall s l u, s < length ss -> nth u (set_nth ss s l) [] = if u =? s then l else nth u ss [].
Proof.
  induction ss as [|x r IH]; intros s l u H; cbn in H; [lia|]. destruct s as [|s], u as [|u]; cbn; try reflexivity. apply IH. lia.
Qed.
Lemma error_nth (ss : list (list Z)) s l : nth_error ss s = Some l -> s < length ss /\ nth s ss [] = l.
Proof. intros H. split; [apply nth_error_Some; congruence|]. apply nth_error_nth, H. Qed.
Lemma nth_set_error ss : forall s l u, nth_error (set_nth ss s l) u = if (u =? s) && (s <? length ss) then Some l else nth_error ss u.
Proof.
  induction ss as [|x r IH]; intros s l u; [cbn; destruct s; rewrite andb_comm; reflexivity|]. destruct s as [|s], u as [|u]; cbn [set_nth nth_error Nat.eqb andb length]; try reflexivity.
  rewrite IH. reflexivity.
Qed.

(** * Where bytes live *)
Lemma place_lt h : forall i x p y, place h i x = Some (Mem p, y) -> p < length h.
Proof.
  induction h as [|b t IH]; intros i x p y; cbn; [discriminate|]. destruct (Nat.eqb_spec i (length t)).
  - destruct (sto b); try discriminate; intros H; try (injection H as <- _; lia). apply IH in H. lia.
  - intros H. apply IH in H. lia.
Qed.
Lemma content_up ss b t c y : (forall p, c = Mem p -> p < length t) -> content ss (b :: t) c y = content ss t c y.
Proof. destruct c as [s|p]; [reflexivity|]. intros H. specialize (H p eq_refl). cbn [content get]. destruct (Nat.eqb_spec p (length t)); [lia|]. reflexivity. Qed.
Lemma content_place ss b t i x : match place t i x with Some (c, y) => content ss (b :: t) c y | None => None end = match place t i x with Some (c, y) => content ss t c y | None => None end.
Proof.
  destruct (place t i x) as [[c y]|] eqn:E; [|reflexivity]. apply content_up. intros p ->. apply (place_lt t i x p y E).
Qed.
Lemma read_place ss h : Forall fits h -> forall i l, read ss h i = Some l ->
  exists b, get h i = Some b /\ length l = size b /\ forall x, x < size b -> nth_error l x = match place h i x with Some (c, y) => content ss h c y | None => None end.
Proof.
  induction h as [|b t IH]; intros Hf i l; cbn [read]; [discriminate|]. inversion Hf as [|? ? Hb Ht]; subst. cbn [get place].
  destruct (Nat.eqb_spec i (length t)) as [->|N].
  - intros H. exists b. split; [reflexivity|]. unfold fits in Hb. destruct (sto b) as [|m|m|s o|p o] eqn:Es.
    + injection H as <-. cbn. split; [congruence|intros x Hx; lia].
    + injection H as <-. split; [congruence|]. intros x Hx. cbn [content get]. rewrite Nat.eqb_refl, Es. reflexivity.
    + injection H as <-. rewrite <- Hb, Nat.min_id, Hb, firstn_all. split; [congruence|]. intros x Hx. cbn [content get]. rewrite Nat.eqb_refl, Es. reflexivity.
    + destruct (nth_error ss s) as [m|] eqn:E; [|discriminate]. destruct (Nat.leb_spec (o + size b) (length m)) as [L|L]; [|discriminate]. injection H as <-.
      split; [apply cut_len, L|]. intros x Hx. rewrite nth_cut by exact Hx. cbn [content]. rewrite (proj2 (error_nth ss s m E)). reflexivity.
    + destruct (read ss t p) as [m|] eqn:E; [|discriminate]. destruct (Nat.leb_spec (o + size b) (length m)) as [L|L]; [|discriminate]. injection H as <-.
      split; [apply cut_len, L|]. intros x Hx. rewrite nth_cut by exact Hx. destruct (IH Ht p m E) as (c & _ & Hl & Hn).
      rewrite content_place. apply Hn. lia.
  - intros H. destruct (IH Ht i l H) as (c & Hg & Hl & Hn). exists c. split; [exact Hg|]. split; [exact Hl|]. intros x Hx. rewrite content_place. apply Hn, Hx.
Qed.
Lemma place_some ss h i l x : Forall fits h -> read ss h i = Some l -> x < length l -> exists c y, place h i x = Some (c, y).
Proof.
  intros Hf Hr Hx. destruct (read_place ss h Hf i l Hr) as (b & _ & Hl & Hn). specialize (Hn x ltac:(lia)). destruct (place h i x) as [[c y]|]; [eauto|].
  apply nth_error_None in Hn. lia.
Qed.

(** * Writing *)
Definition same_strs (ss ss' : list (list Z)) : Prop :=
  forall s, match nth_error ss s, nth_error ss' s with Some a, Some b => length a = length b | None, None => True | _, _ => False end.
Lemma same_refl ss : same_strs ss ss.
Proof. intros s. destruct (nth_error ss s); auto. Qed.
Lemma write_effect h : forall ss i o d ss' h', write ss h i o d = WOk ss' h' ->
  map look h' = map look h /\ same_strs ss ss' /\
  (forall k c y, k < length d -> place h i (o + k) = Some (c, y) -> content ss' h' c y = nth_error d k) /\
  (forall c y, (forall k, k < length d -> place h i (o + k) <> Some (c, y)) -> content ss' h' c y = content ss h c y).
Proof.
  induction h as [|b t IH]; intros ss i o d ss' h'; cbn [write]; [discriminate|]. cbn [place]. destruct (Nat.eqb_spec i (length t)) as [->|N].
  - destruct (sto b) as [|m|m|s base|p base] eqn:Es.
    + intros [= <- <-]. split; [reflexivity|]. split; [apply same_refl|]. split; [discriminate|reflexivity].
    + destruct (Nat.leb_spec (o + length d) (length m)) as [L|]; [|discriminate]. intros [= <- <-]. split; [cbn; unfold look; cbn; rewrite Es; cbn; rewrite patch_len by exact L; reflexivity|].
      split; [apply same_refl|]. split.
      * intros k c y Hk [= <- <-]. cbn [content get]. rewrite Nat.eqb_refl. cbn [sto]. rewrite nth_patch by exact L.
        replace ((o <=? o + k) && (o + k <? o + length d)) with true by (symmetry; apply andb_true_iff; rewrite Nat.leb_le, Nat.ltb_lt; lia). f_equal. lia.
      * intros [s|q] y H; [reflexivity|]. cbn [content get]. destruct (Nat.eqb_spec q (length t)) as [->|]; [|reflexivity]. cbn [sto]. rewrite Es, nth_patch by exact L.
        destruct (Nat.leb_spec o y); [|reflexivity]. destruct (Nat.ltb_spec y (o + length d)); [|reflexivity]. exfalso. apply (H (y - o)); [lia|]. repeat f_equal. lia.
    + destruct (Nat.leb_spec (o + length d) (length m)) as [L|]; [|discriminate]. intros [= <- <-]. split; [cbn; unfold look; cbn; rewrite Es; cbn; rewrite patch_len by exact L; reflexivity|].
      split; [apply same_refl|]. split.
      * intros k c y Hk [= <- <-]. cbn [content get]. rewrite Nat.eqb_refl. cbn [sto]. rewrite nth_patch by exact L.
        replace ((o <=? o + k) && (o + k <? o + length d)) with true by (symmetry; apply andb_true_iff; rewrite Nat.leb_le, Nat.ltb_lt; lia). f_equal. lia.
      * intros [s|q] y H; [reflexivity|]. cbn [content get]. destruct (Nat.eqb_spec q (length t)) as [->|]; [|reflexivity]. cbn [sto]. rewrite Es, nth_patch by exact L.
        destruct (Nat.leb_spec o y); [|reflexivity]. destruct (Nat.ltb_spec y (o + length d)); [|reflexivity]. exfalso. apply (H (y - o)); [lia|]. repeat f_equal. lia.
    + destruct (nth_error ss s) as [m|] eqn:E; [|discriminate]. destruct (Nat.leb_spec (base + o + length d) (length m)) as [L|]; [|discriminate]. intros [= <- <-].
      split; [reflexivity|]. destruct (error_nth ss s m E) as [Hs Hm]. split.
      { intros u. rewrite nth_set_error. destruct (Nat.eqb_spec u s) as [->|]; cbn [andb]; [|destruct (nth_error ss u); auto].
        replace (s <? length ss) with true by (symmetry; apply Nat.ltb_lt, Hs). rewrite E. symmetry. apply patch_len. exact L. }
      split.
      * intros k c y Hk [= <- <-]. cbn [content]. rewrite nth_set, Nat.eqb_refl by exact Hs. rewrite nth_patch by exact L.
        replace ((base + o <=? base + (o + k)) && (base + (o + k) <? base + o + length d)) with true by (symmetry; apply andb_true_iff; rewrite Nat.leb_le, Nat.ltb_lt; lia). f_equal. lia.
      * intros [u|q] y H; [|reflexivity]. cbn [content]. rewrite nth_set by exact Hs. destruct (Nat.eqb_spec u s) as [->|]; [|reflexivity]. rewrite nth_patch by exact L.
        destruct (Nat.leb_spec (base + o) y); [|rewrite Hm; reflexivity]. destruct (Nat.ltb_spec y (base + o + length d)); [|rewrite Hm; reflexivity].
        exfalso. apply (H (y - (base + o))); [lia|]. repeat f_equal. lia.
    + destruct (write ss t p (base + o) d) as [ss1 t1| |] eqn:E; try discriminate. intros [= <- <-]. destruct (IH _ _ _ _ _ _ E) as (H1 & H2 & H3 & H4).
      assert (Hl : length t1 = length t) by (apply (f_equal (@length _)) in H1; rewrite !map_length in H1; exact H1).
      split; [cbn [map]; congruence|]. split; [exact H2|]. split.
      * intros k c y Hk Hp. rewrite content_up by (intros q ->; rewrite Hl; apply (place_lt t _ _ q y Hp)). apply (H3 k c y Hk). rewrite <- Hp. f_equal. lia.
      * intros c y H. destruct c as [u|q].
        -- apply (H4 (Text u) y). intros k Hk Hp. apply (H k Hk). rewrite <- Hp. f_equal. lia.
        -- cbn [content get]. rewrite Hl. destruct (Nat.eqb_spec q (length t)) as [->|]; [reflexivity|]. apply (H4 (Mem q) y). intros k Hk Hp. apply (H k Hk). rewrite <- Hp. f_equal. lia.
  - destruct (write ss t i o d) as [ss1 t1| |] eqn:E; try discriminate. intros [= <- <-]. destruct (IH _ _ _ _ _ _ E) as (H1 & H2 & H3 & H4).
    assert (Hl : length t1 = length t) by (apply (f_equal (@length _)) in H1; rewrite !map_length in H1; exact H1).
    split; [cbn [map]; congruence|]. split; [exact H2|]. split.
    * intros k c y Hk Hp. rewrite content_up by (intros q ->; rewrite Hl; apply (place_lt t _ _ q y Hp)). apply (H3 k c y Hk Hp).
    * intros c y H. destruct c as [u|q]; [apply (H4 (Text u) y H)|].
      cbn [content get]. rewrite Hl. destruct (Nat.eqb_spec q (length t)) as [->|]; [reflexivity|]. apply (H4 (Mem q) y H).
Qed.
Lemma write_total h : Forall fits h -> forall ss i o d l, read ss h i = Some l -> o + length d <= length l -> exists ss' h', write ss h i o d = WOk ss' h'.
Proof.
  induction h as [|b t IH]; intros Hf ss i o d l; cbn [read write]; [discriminate|]. inversion Hf as [|? ? Hb Ht]; subst.
  destruct (i =? length t).
  - unfold fits in Hb. destruct (sto b) as [|m|m|s base|p base] eqn:Es; intros Hr Ho.
    + eauto.
    + injection Hr as <-. rewrite (proj2 (Nat.leb_le _ _) Ho). eauto.
    + injection Hr as <-. rewrite firstn_length in Ho. replace (o + length d <=? length m) with true by (symmetry; apply Nat.leb_le; lia). eauto.
    + destruct (nth_error ss s) as [m|]; [|discriminate]. destruct (Nat.leb_spec (base + size b) (length m)) as [L|]; [|discriminate]. injection Hr as <-. rewrite cut_len in Ho by exact L.
      replace (base + o + length d <=? length m) with true by (symmetry; apply Nat.leb_le; lia). eauto.
    + destruct (read ss t p) as [m|] eqn:E; [|discriminate]. destruct (Nat.leb_spec (base + size b) (length m)) as [L|]; [|discriminate]. injection Hr as <-. rewrite cut_len in Ho by exact L.
      destruct (IH Ht ss p (base + o) d m E ltac:(lia)) as (ss' & t' & ->). eauto.
  - intros Hr Ho. destruct (IH Ht ss i o d l Hr Ho) as (ss' & t' & ->). eauto.
Qed.
(** Only sizes and places decide what can be read. *)
Lemma look_fits b b' : look b' = look b -> fits b -> fits b'.
Proof.
  unfold look, fits. intros H F. injection H as H1 H2 _ _ _. destruct (sto b) as [|m|m|s o|p o], (sto b') as [|m'|m'|s' o'|p' o']; cbn in H1; try discriminate; try exact I; try congruence;
    injection H1 as H1; apply (f_equal (@length _)) in H1; rewrite !repeat_length in H1; congruence.
Qed.
Lemma looks_cons b t b' t' : map look (b' :: t') = map look (b :: t) -> look b' = look b /\ map look t' = map look t.
Proof. intros H. split; [exact (f_equal (fun l => hd (look b') l) H)|exact (f_equal (@tl _) H)]. Qed.
Lemma looks_fits h : forall h', map look h' = map look h -> Forall fits h -> Forall fits h'.
Proof.
  induction h as [|b t IH]; intros [|b' t'] H F; try discriminate H; [constructor|]. apply looks_cons in H. destruct H as [H1 H2]. inversion F; subst. constructor; [apply (look_fits b b'); assumption|apply IH; assumption].
Qed.
Lemma looks_len h h' : map look h' = map look h -> length h' = length h.
Proof. intros H. apply (f_equal (@length _)) in H. rewrite !map_length in H. exact H. Qed.
Lemma looks_get h : forall h' i, map look h' = map look h -> option_map look (get h' i) = option_map look (get h i).
Proof.
  induction h as [|b t IH]; intros [|b' t'] i H; try discriminate H; [reflexivity|]. apply looks_cons in H. destruct H as [H1 H2]. cbn [get]. rewrite (looks_len t t' H2).
  destruct (i =? length t); [cbn; f_equal; exact H1|apply IH, H2].
Qed.
Lemma looks_place h : forall h' i x, map look h' = map look h -> place h' i x = place h i x.
Proof.
  induction h as [|b t IH]; intros [|b' t'] i x H; cbn in H; try discriminate; [reflexivity|]. injection H as H1 H2 _ _ _ H6. cbn [place]. rewrite (looks_len t t' H6).
  destruct (i =? length t); [|apply IH, H6]. destruct (sto b) as [|m|m|s o|p o], (sto b') as [|m'|m'|s' o'|p' o']; cbn in H1; try discriminate; try reflexivity; injection H1 as -> ->; [reflexivity|apply IH, H6].
Qed.
Lemma looks_read h : forall ss ss' h' i, map look h' = map look h -> same_strs ss ss' ->
  match read ss h i, read ss' h' i with Some a, Some b => length a = length b | None, None => True | _, _ => False end.
Proof.
  induction h as [|b t IH]; intros ss ss' [|b' t'] i H S; cbn in H; try discriminate; [exact I|]. injection H as H1 H2 _ _ _ H6. cbn [read]. rewrite (looks_len t t' H6).
  destruct (i =? length t); [|apply IH; assumption]. destruct (sto b) as [|m|m|s o|p o], (sto b') as [|m'|m'|s' o'|p' o']; cbn in H1; try discriminate.
  - reflexivity.
  - injection H1 as H1. apply (f_equal (@length _)) in H1. rewrite !repeat_length in H1. congruence.
  - injection H1 as H1. apply (f_equal (@length _)) in H1. rewrite !repeat_length in H1. rewrite !firstn_length, H1, H2. reflexivity.
  - injection H1 as -> ->. specialize (S s). destruct (nth_error ss s) as [a|], (nth_error ss' s) as [a'|]; try contradiction; [|exact I]. rewrite H2, <- S.
    destruct (Nat.leb_spec (o + size b) (length a)); [|exact I]. rewrite !cut_len by lia. reflexivity.
  - injection H1 as -> ->. specialize (IH ss ss' t' p H6 S). destruct (read ss t p) as [a|], (read ss' t' p) as [a'|]; try contradiction; [|exact I]. rewrite H2, <- IH.
    destruct (Nat.leb_spec (o + size b) (length a)); [|exact I]. rewrite !cut_len by lia. reflexivity.
Qed.
(** What any buffer shows after a write through any buffer *)
Lemma views ss h i o d ss' h' j l : Forall fits h -> write ss h i o d = WOk ss' h' -> read ss h j = Some l ->
  exists l', read ss' h' j = Some l' /\ length l' = length l /\ forall x, x < length l ->
    (forall k, k < length d -> place h j x = place h i (o + k) -> nth_error l' x = nth_error d k) /\
    ((forall k, k < length d -> place h j x <> place h i (o + k)) -> nth_error l' x = nth_error l x).
Proof.
  intros Hf Hw Hr. destruct (write_effect h ss i o d ss' h' Hw) as (H1 & H2 & H3 & H4). pose proof (looks_read h ss ss' h' j H1 H2) as L. rewrite Hr in L.
  destruct (read ss' h' j) as [l'|] eqn:Hr'; [|contradiction]. exists l'. split; [reflexivity|]. split; [congruence|]. intros x Hx.
  destruct (read_place ss h Hf j l Hr) as (b & _ & B1 & B2). destruct (read_place ss' h' (looks_fits h h' H1 Hf) j l' Hr') as (b' & _ & B1' & B2').
  rewrite B2 by lia. rewrite B2' by lia. rewrite (looks_place h h' j x H1). destruct (place_some ss h j l x Hf Hr Hx) as (c & y & E). rewrite E. split.
  - intros k Hk Hp. apply (H3 k c y Hk). congruence.
  - intros H. apply H4. intros k Hk Hp. apply (H k Hk). congruence.
Qed.
(** Distinct bytes of a buffer live in distinct places. *)
Lemma place_inj h : forall i x x' c y, place h i x = Some (c, y) -> place h i x' = Some (c, y) -> x = x'.
Proof.
  induction h as [|b t IH]; intros i x x' c y; cbn; [discriminate|]. destruct (i =? length t); [|apply IH].
  destruct (sto b) as [|m|m|s o|p o]; try discriminate; intros A B; [injection A; injection B; congruence..|injection A; injection B; intros; lia|].
  pose proof (IH p _ _ c y A B). lia.
Qed.
Lemma list_ext (a b : list Z) : length a = length b -> (forall x, x < length a -> nth_error a x = nth_error b x) -> a = b.
Proof.
  revert b. induction a as [|y a IH]; intros [|z b] L H; cbn in L; try discriminate; [reflexivity|]. f_equal.
  - specialize (H 0 ltac:(cbn; lia)). cbn in H. congruence.
  - apply IH; [lia|]. intros x Hx. apply (H (S x)). cbn. lia.
Qed.
Lemma write_read ss h i o d l : Forall fits h -> read ss h i = Some l -> o + length d <= length l ->
  exists ss' h', write ss h i o d = WOk ss' h' /\ read ss' h' i = Some (patch l o d).
Proof.
  intros Hf Hr Ho. destruct (write_total h Hf ss i o d l Hr Ho) as (ss' & h' & Hw). exists ss', h'. split; [exact Hw|].
  destruct (views ss h i o d ss' h' i l Hf Hw Hr) as (l' & -> & Hl & Hv). f_equal. apply list_ext; [rewrite patch_len; assumption|].
  intros x Hx. rewrite Hl in Hx. destruct (Hv x Hx) as [V1 V2]. rewrite nth_patch by exact Ho.
  destruct (Nat.leb_spec o x) as [A|A]; cbn [andb].
  - destruct (Nat.ltb_spec x (o + length d)) as [B|B].
    + apply V1; [lia|]. f_equal. lia.
    + apply V2. intros k Hk E. destruct (place_some ss h i l x Hf Hr Hx) as (c & y & P). rewrite P in E. pose proof (place_inj h i x (o + k) c y P (eq_sym E)). lia.
  - apply V2. intros k Hk E. destruct (place_some ss h i l x Hf Hr Hx) as (c & y & P). rewrite P in E. pose proof (place_inj h i x (o + k) c y P (eq_sym E)). lia.
Qed.
