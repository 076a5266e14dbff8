From Coq Require Import List Bool ZArith Arith Lia.
From Verif Require Import BufModel BufSpec BufProofs.
Import ListNotations.

(** * Sizes agree with memory *)
Lemma to_le_len n : forall v, length (to_le n v) = n.
Proof. induction n as [|n IH]; intros v; cbn; [reflexivity|]. rewrite IH. reflexivity. Qed.
Lemma encode_len n k big v d : encode n k big v = Some d -> length d = n.
Proof.
  unfold encode. intros H. assert (E : d = if big then rev (to_le n (v mod 2 ^ 64)) else to_le n (v mod 2 ^ 64)) by (destruct k; try destruct (i64_fits v); congruence).
  subst d. destruct big; rewrite ?rev_length; apply to_le_len.
Qed.
Lemma bitwise_len f l m : length (bitwise f l m) = length l.
Proof. unfold bitwise. rewrite map_length, combine_length, seq_length. apply Nat.min_id. Qed.
Lemma offset_spec s off len o n : offset_length s off len = Some (o, n) -> o + n <= s /\ off = Z.of_nat o /\ match len with Some z => z = Z.of_nat n | None => n = s - o end.
Proof.
  unfold offset_length. destruct (Z.ltb_spec off 0); [discriminate|]. destruct (Z.ltb_spec (Z.of_nat s) off); [discriminate|].
  destruct len as [z|].
  - destruct (Z.ltb_spec z 0); [discriminate|]. destruct (Z.ltb_spec (Z.of_nat s) (off + z)); [discriminate|]. intros [= <- <-]. lia.
  - destruct (Z.ltb_spec (Z.of_nat s - off) 0); [discriminate|]. destruct (Z.ltb_spec (Z.of_nat s) (off + (Z.of_nat s - off))); [discriminate|]. intros [= <- <-]. lia.
Qed.
Lemma write_fits ss h i o d ss' h' : Forall fits h -> write ss h i o d = WOk ss' h' -> Forall fits h'.
Proof. intros Hf Hw. destruct (write_effect h ss i o d ss' h' Hw) as (H1 & _). apply (looks_fits h h' H1 Hf). Qed.
Lemma read_size ss h i l b : Forall fits h -> read ss h i = Some l -> get h i = Some b -> length l = size b.
Proof. intros Hf Hr Hg. destruct (read_place ss h Hf i l Hr) as (c & Hc & Hl & _). congruence. Qed.
Lemma read_get ss h i l : Forall fits h -> read ss h i = Some l -> exists b, get h i = Some b /\ length l = size b.
Proof. intros Hf Hr. destruct (read_place ss h Hf i l Hr) as (c & Hc & Hl & _). eauto. Qed.


Local Ltac case_if := match goal with |- context [if ?c then _ else _] => destruct c eqn:? end.
Definition kept (P : heap -> Prop) : Prop :=
  (forall h h', map look h' = map look h -> P h -> P h').
Lemma wrote_P (P : heap -> Prop) w r a : kept P -> P (bufs w) -> (forall ss h, r = WOk ss h -> map look h = map look (bufs w)) -> P (bufs (fst (wrote w r a))).
Proof. intros K H E. destruct r as [ss h| |]; cbn; [|exact H|exact H]. apply (K (bufs w)); [apply (E ss h eq_refl)|exact H]. Qed.
Lemma write_looks ss h i o d ss' h' : write ss h i o d = WOk ss' h' -> map look h' = map look h.
Proof. intros H. apply (write_effect h ss i o d ss' h' H). Qed.

(** A property of the buffers that byte writes keep holds after a step if it holds for the five ways to make and replace buffers. *)
Lemma step_P (P : heap -> Prop) w o : kept P -> P (bufs w) ->
  (forall b, (forall p q, sto b <> Slice p q) -> (forall s q, sto b = Str s q -> ro b = true \/ exists f, o = ForBegin s f /\ ro b = f) -> fits b -> (forall s q, sto b = Str s q -> s < length (strs (fst (step w o)))) -> P (b :: bufs w)) ->
  (forall i b off n, get (bufs w) i = Some b -> off + n <= size b -> (forall s q, sto b <> Str s q) -> P (mkB (Slice i off) n (ro b) false false :: bufs w)) ->
  (forall i b s q q' n, get (bufs w) i = Some b -> sto b = Str s q -> P (mkB (Str s q') n (ro b) false false :: bufs w)) ->
  (forall i b, get (bufs w) i = Some b -> P (b :: bufs w)) ->
  (forall i b, get (bufs w) i = Some b -> locked b = false -> o = Transfer i -> P (b :: put (bufs w) i (mkB Null 0 (ro b) (priv b) false))) ->
  (forall i b c, get (bufs w) i = Some b -> (locked b = false \/ o = ForEnd i) -> (forall s q, sto c <> Str s q) -> (forall s q, sto c <> Slice s q) -> fits c -> (o = Free i \/ o = ForEnd i \/ exists n, o = Resize i n /\ forall s q, sto b <> Str s q) -> P (put (bufs w) i c)) ->
  (forall i b f, get (bufs w) i = Some b -> (f = true \/ o = Unlock i) -> (f = true -> locked b = false) -> P (put (bufs w) i (mkB (sto b) (size b) (ro b) (priv b) f))) ->
  Forall fits (bufs w) -> P (bufs (fst (step w o))).
Proof.
  intros K H HN HS HT HD HM HR HL Hf. destruct o; cbn [step]; unfold with_buf, with_bytes, set_buf, push.
  - destruct (n <? 0)%Z; [exact H|]. apply HN.
    + intros p q. destruct (n =? 0)%Z; discriminate.
    + intros s q. destruct (n =? 0)%Z; discriminate.
    + unfold fits. destruct (n =? 0)%Z; reflexivity.
    + intros s q. destruct (n =? 0)%Z; discriminate.
  - destruct (nth_error (strs w) s) as [l|] eqn:E; [|exact H]. apply HN; [discriminate|left; reflexivity|exact I|]. intros s' q X. cbn in X. injection X as <- _. cbn [step]. rewrite E. cbn. rewrite app_length. cbn. lia.
  - destruct (nth_error (strs w) s) as [l|] eqn:E; [|exact H]. apply HN; [discriminate| |exact I|].
    + intros s' q X. right. exists frozen. cbn in X. injection X as <- _. split; reflexivity.
    + intros s' q X. cbn in X. injection X as <- _. cbn [step]. rewrite E. cbn. apply (error_nth _ _ _ E).
  - destruct (get (bufs w) i) as [b|] eqn:E; [|exact H]. apply (HR i b); [exact E|auto|discriminate|discriminate|reflexivity|auto].
  - case_if; [exact H|]. apply HN; [discriminate|discriminate|reflexivity|discriminate].
  - destruct (get (bufs w) i) as [b|] eqn:E; [|exact H]. destruct (locked b) eqn:L; [exact H|]. apply (HR i b); [exact E|auto|discriminate|discriminate|reflexivity|auto].
  - destruct (get (bufs w) i) as [b|] eqn:E; [|exact H]. destruct (locked b) eqn:L; [exact H|]. apply (HM i b); [assumption|assumption|reflexivity].
  - destruct (get (bufs w) i) as [b|] eqn:E; [|exact H]. destruct (locked b) eqn:L; [exact H|]. case_if; [exact H|].
    assert (G : (forall s q, sto b <> Str s q) -> P (bufs (fst (if (match sto b with Map _ => negb (priv b) | _ => false end) then (w, Err) else
          match read (strs w) (bufs w) i with Some l =>
          let n := Z.to_nat n in
          let l := firstn n l ++ repeat 0%Z (n - length l) in
          let b' := match sto b with Null => owned l false false | _ => owned l (ro b) (priv b) end in
          (mkW (strs w) (put (bufs w) i (match n with O => null | _ => b' end)), Val (ABuf i)) | None => (w, Err) end)))).
    { intros NS. case_if; [exact H|]. destruct (read (strs w) (bufs w) i) as [l|]; [|exact H]. cbv zeta. cbn [fst bufs]. apply (HR i b); [exact E|left; exact L|..].
      - intros s q. destruct (Z.to_nat n), (sto b); discriminate.
      - intros s q. destruct (Z.to_nat n), (sto b); discriminate.
      - unfold fits. destruct (Z.to_nat n), (sto b); reflexivity.
      - right. right. exists n. split; [reflexivity|exact NS]. }
    destruct (sto b) eqn:Es; try exact H; (apply G; intros ? ? X; discriminate X).
  - destruct (get (bufs w) i) as [b|] eqn:E; [|exact H]. destruct (offset_length (size b) off len) as [[o n]|] eqn:O; [|exact H]. destruct (offset_spec _ _ _ _ _ O) as (B & _).
    destruct (sto b) eqn:Es; cbn [fst bufs].
    + apply HN; [discriminate|discriminate|reflexivity|discriminate].
    + apply (HS i b); [exact E|exact B|congruence].
    + apply (HS i b); [exact E|exact B|congruence].
    + apply (HT i b s o0); assumption.
    + apply (HS i b); [exact E|exact B|congruence].
  - destruct (get (bufs w) i) as [b|] eqn:E; [|exact H]. cbn [fst bufs]. pose proof (get_fits _ _ _ Hf E) as F. unfold fits in F. destruct (sto b) eqn:Es; try (apply (HD i b E)).
    apply HN; [discriminate|discriminate|exact F|discriminate].
  - destruct (get (bufs w) i) as [b|]; [|exact H]. destruct (read _ _ _); [|exact H]. destruct (offset_length _ _ _) as [[? ?]|]; exact H.
  - destruct (get (bufs w) i) as [b|]; [|exact H]. case_if; [exact H|]. destruct (read _ _ _); [|exact H].
    destruct (match src with Bytes l => Some l | Same s => nth_error (strs w) s end); [|exact H]. case_if; [exact H|]. cbv zeta. case_if; [exact H|]. case_if; [exact H|].
    destruct (sto b), src; try (apply wrote_P; [exact K|exact H|intros ? ? E; apply (write_looks _ _ _ _ _ _ _ E)]).
    case_if; [exact H|]. apply wrote_P; [exact K|exact H|intros ? ? E; apply (write_looks _ _ _ _ _ _ _ E)].
  - destruct (get (bufs w) i) as [b|]; [|exact H]. cbv zeta. case_if; [exact H|]. destruct (read _ _ _); exact H.
  - destruct (get (bufs w) i) as [b|]; [|exact H]. case_if; [exact H|]. cbv zeta. case_if; [exact H|]. destruct (encode _ _ _ _); [|exact H].
    apply wrote_P; [exact K|exact H|intros ? ? E; apply (write_looks _ _ _ _ _ _ _ E)].
  - destruct (read _ _ _); [|exact H]. cbv zeta. case_if; exact H.
  - destruct (get (bufs w) i) as [b|]; [|exact H]. case_if; [exact H|]. destruct (offset_length _ _ _) as [[? ?]|]; [|exact H].
    apply wrote_P; [exact K|exact H|intros ? ? E; apply (write_looks _ _ _ _ _ _ _ E)].
  - destruct (read _ _ _); [|exact H]. destruct (read _ _ _); exact H.
  - destruct (read _ _ _); [|exact H]. case_if; [exact H|]. destruct (read _ _ _); [|exact H]. apply HN; [discriminate|discriminate|reflexivity|discriminate].
  - destruct (read _ _ _); [|exact H]. case_if; [exact H|]. destruct (get _ _); [|exact H]. case_if; [exact H|]. destruct (read _ _ _); [|exact H].
    apply wrote_P; [exact K|exact H|intros ? ? E; apply (write_looks _ _ _ _ _ _ _ E)].
  - destruct (read _ _ _); [|exact H]. apply HN; [discriminate|discriminate|reflexivity|discriminate].
  - destruct (get _ _); [|exact H]. case_if; [exact H|]. destruct (read _ _ _); [|exact H].
    apply wrote_P; [exact K|exact H|intros ? ? E; apply (write_looks _ _ _ _ _ _ _ E)].
  - destruct (get (bufs w) i) as [b|] eqn:E; [|exact H]. destruct (locked b) eqn:L; [exact H|]. apply (HL i b true E); auto.
  - destruct (get (bufs w) i) as [b|] eqn:E; [|exact H]. apply (HL i b false E); [auto|discriminate].
  - exact H.
Qed.

Lemma kept_fits : kept (Forall fits).
Proof. intros h h' E F. apply (looks_fits h h' E F). Qed.
Lemma step_sound w o : sound w -> sound (fst (step w o)).
Proof.
  unfold sound. intros H. apply step_P; try exact H; try exact kept_fits; intros.
  - constructor; assumption.
  - constructor; [exact I|assumption].
  - constructor; [exact I|assumption].
  - constructor; [eapply get_fits; eassumption|assumption].
  - constructor; [eapply get_fits; eassumption|apply put_fits; [assumption|reflexivity]].
  - apply put_fits; assumption.
  - apply put_fits; [assumption|]. exact (get_fits _ _ _ H H0).
Qed.
Lemma run_sound l : forall w, sound w -> sound (run w l).
Proof. induction l as [|o l IH]; intros w H; [exact H|]. apply IH, step_sound, H. Qed.
Lemma reached_sound w : reached w -> sound w.
Proof. intros (ss & l & ->). apply run_sound. constructor. Qed.

(** * No panics but the two unchecked methods *)
Lemma wrote_panic w ss h i o d a l : Forall fits h -> read ss h i = Some l -> o + length d <= length l -> snd (wrote w (write ss h i o d) a) <> Panic.
Proof. intros Hf Hr Ho. destruct (write_total h Hf ss i o d l Hr Ho) as (ss' & h' & ->). discriminate. Qed.
Lemma no_panic w o : sound w -> snd (step w o) = Panic -> exists i, unchecked o = Some i /\ ~ readable w i.
Proof.
  unfold sound, readable. intros Hf HP. destruct o; cbn [step] in HP; unfold with_buf, with_bytes, set_buf, push in HP; cbn [unchecked];
    repeat match type of HP with
    | snd (if ?c then _ else _) = Panic => let E := fresh "E" in destruct c eqn:E; [try discriminate HP|try discriminate HP]
    | snd (match get ?h ?i with Some _ => _ | None => _ end) = Panic => let E := fresh "E" in destruct (get h i) eqn:E; [|discriminate HP]
    | snd (match read ?s ?h ?i with Some _ => _ | None => _ end) = Panic => let E := fresh "E" in destruct (read s h i) eqn:E; [|discriminate HP]
    end; try discriminate HP.
  - destruct (nth_error (strs w) s); discriminate.
  - destruct (nth_error (strs w) s); discriminate.
  - destruct (sto b); try discriminate HP; cbn in HP; try (destruct (read _ _ _); discriminate). destruct (priv b); cbn in HP; [|discriminate]. destruct (read _ _ _); discriminate.
  - destruct (offset_length _ _ _) as [[? ?]|]; [|discriminate]. destruct (sto b); discriminate.
  - destruct (offset_length _ _ _) as [[? ?]|]; discriminate.
  - exfalso. destruct (match src with Bytes l => Some l | Same s => nth_error (strs w) s end) as [m|]; [|discriminate HP].
    destruct (Z.ltb_spec off 0); [discriminate HP|]. cbv zeta in HP.
    set (d := cut m _ _) in HP. clearbody d. destruct (Z.ltb_spec (Z.of_nat (size b)) off); [discriminate HP|]. destruct (Z.ltb_spec (Z.of_nat (size b)) (off + Z.of_nat (length d))); [discriminate HP|].
    pose proof (read_size _ _ _ _ _ Hf E1 E) as L.
    assert (G : forall a, snd (wrote w (write (strs w) (bufs w) i (Z.to_nat off) d) a) <> Panic) by (intros a; apply (wrote_panic _ _ _ _ _ _ _ l Hf E1); lia).
    destruct (sto b), src; try (apply (G _ HP)). destruct (s =? s0); [discriminate HP|apply (G _ HP)].
  - exists i. split; [reflexivity|]. intros R. destruct (read (strs w) (bufs w) i) as [l|] eqn:Er; [|congruence]. destruct (encode n k big v) as [d|] eqn:Ee; [|discriminate].
    apply Z.ltb_ge in E1.
    pose proof (read_size _ _ _ _ _ Hf Er E) as L. revert HP. apply (wrote_panic _ _ _ _ _ _ _ l Hf Er). rewrite (encode_len _ _ _ _ _ Ee). lia.
  - exists i. split; [reflexivity|]. intros R. destruct (read (strs w) (bufs w) i) as [l|] eqn:Er; [|congruence]. destruct (offset_length (size b) off len) as [[o n]|] eqn:O; [|discriminate].
    destruct (offset_spec _ _ _ _ _ O) as (B & _). pose proof (read_size _ _ _ _ _ Hf Er E) as L. revert HP. apply (wrote_panic _ _ _ _ _ _ _ l Hf Er). rewrite repeat_length. lia.
  - exfalso. revert HP. apply (wrote_panic _ _ _ _ _ _ _ l0 Hf E3). rewrite bitwise_len. lia.
  - exfalso. revert HP. apply (wrote_panic _ _ _ _ _ _ _ l Hf E1). rewrite map_length. lia.
Qed.

(** * Locks *)
Definition same_look (i : nat) (b : buf) (h : heap) : Prop := option_map look (get h i) = Some (look b).
Lemma get_push b h i : i < length h -> get (b :: h) i = get h i.
Proof. intros H. cbn. destruct (Nat.eqb_spec i (length h)); [lia|reflexivity]. Qed.
Lemma same_lt i b h : same_look i b h -> i < length h.
Proof. unfold same_look. destruct (get h i) as [c|] eqn:E; [|discriminate]. intros _. apply (get_lt h i c E). Qed.
Lemma same_push i b h c : same_look i b h -> same_look i b (c :: h).
Proof. intros H. unfold same_look. rewrite get_push by (apply (same_lt i b h H)). exact H. Qed.
Lemma locked_step w o i b : sound w -> locked b = true -> ~ unlocks o i -> same_look i b (bufs w) -> same_look i b (bufs (fst (step w o))).
Proof.
  intros Hs Hl Hu H. assert (Hl' : forall c, get (bufs w) i = Some c -> locked c = true).
  { intros c E. unfold same_look in H. rewrite E in H. cbn in H. injection H as _ _ _ _ H. congruence. }
  apply step_P; try exact H; try exact Hs.
  - intros h h' E X. unfold same_look. rewrite (looks_get h h' i E). exact X.
  - intros. apply same_push, H.
  - intros. apply same_push, H.
  - intros. apply same_push, H.
  - intros. apply same_push, H.
  - intros j c E L _. apply same_push. unfold same_look. rewrite get_put. destruct (Nat.eqb_spec i j) as [->|]; [|exact H]. rewrite (Hl' c E) in L. discriminate.
  - intros j c c' E L _ _ _ _. unfold same_look. rewrite get_put. destruct (Nat.eqb_spec i j) as [->|]; [|exact H]. destruct L as [L| ->]; [rewrite (Hl' c E) in L; discriminate|]. destruct Hu. right. reflexivity.
  - intros j c f E L M. unfold same_look. rewrite get_put. destruct (Nat.eqb_spec i j) as [->|]; [|exact H]. destruct L as [-> | ->].
    + specialize (M eq_refl). rewrite (Hl' c E) in M. discriminate.
    + destruct Hu. left. reflexivity.
Qed.
Lemma locked_run l : forall w i b, sound w -> locked b = true -> Forall (fun o => ~ unlocks o i) l -> same_look i b (bufs w) -> same_look i b (bufs (run w l)).
Proof.
  induction l as [|o l IH]; intros w i b Hs Hl Hu H; [exact H|]. inversion Hu; subst. cbn [run]. apply IH; [apply step_sound, Hs|exact Hl|assumption|]. apply locked_step; assumption.
Qed.
Lemma locked_stays w i b l : reached w -> get (bufs w) i = Some b -> locked b = true -> Forall (fun o => ~ unlocks o i) l ->
  exists c, get (bufs (run w l)) i = Some c /\ look c = look b.
Proof.
  intros Hr Hg Hl Hu. assert (H : same_look i b (bufs w)) by (unfold same_look; rewrite Hg; reflexivity).
  pose proof (locked_run l w i b (reached_sound w Hr) Hl Hu H) as S. unfold same_look in S. destruct (get (bufs (run w l)) i) as [c|]; [|discriminate]. exists c. split; [reflexivity|]. cbn in S. injection S. intros. unfold look. congruence.
Qed.

(** * Slices are cut from older buffers, never from Strings *)
Definition linked (h : heap) : Prop :=
  forall i b p o, get h i = Some b -> sto b = Slice p o -> p < i /\ forall c s q, get h p = Some c -> sto c <> Str s q.
Lemma look_sto_slice b c p o : look c = look b -> sto c = Slice p o -> sto b = Slice p o.
Proof. unfold look. intros H E. injection H as H _ _ _ _. rewrite E in H. destruct (sto b); cbn in H; try discriminate. congruence. Qed.
Lemma look_sto_str b c p o : look c = look b -> sto c = Str p o -> sto b = Str p o.
Proof. unfold look. intros H E. injection H as H _ _ _ _. rewrite E in H. destruct (sto b); cbn in H; try discriminate. congruence. Qed.
Lemma looks_get_some h h' i c : map look h' = map look h -> get h' i = Some c -> exists b, get h i = Some b /\ look c = look b.
Proof.
  intros H E. pose proof (looks_get h h' i H) as L. rewrite E in L. destruct (get h i) as [b|]; [|discriminate]. exists b. split; [reflexivity|].
  cbn [option_map] in L. exact (f_equal (fun o => match o with Some x => x | None => look c end) L).
Qed.
Lemma kept_linked : kept linked.
Proof.
  intros h h' E H i b p o Hg Hs. destruct (looks_get_some h h' i b E Hg) as (b0 & G0 & L0). destruct (H i b0 p o G0 (look_sto_slice _ _ _ _ L0 Hs)) as [A B]. split; [exact A|].
  intros c s q Hc X. destruct (looks_get_some h h' p c E Hc) as (c0 & G1 & L1). apply (B c0 s q G1). apply (look_sto_str _ _ _ _ L1 X).
Qed.
Lemma linked_push h b : linked h -> (forall p o, sto b = Slice p o -> p < length h /\ forall c s q, get h p = Some c -> sto c <> Str s q) -> linked (b :: h).
Proof.
  intros H Hb i c p o Hg Hs. cbn [get] in Hg. destruct (Nat.eqb_spec i (length h)) as [->|N].
  - injection Hg as ->. destruct (Hb p o Hs) as [A B]. split; [exact A|]. intros d s q Hd. rewrite get_push in Hd by exact A. apply (B d s q Hd).
  - destruct (H i c p o Hg Hs) as [A B]. split; [exact A|]. intros d s q Hd. rewrite get_push in Hd; [apply (B d s q Hd)|]. pose proof (get_lt h i c Hg). lia.
Qed.
Lemma linked_put h i b c : linked h -> get h i = Some b -> ((forall p o, sto c <> Slice p o) /\ (forall s q, sto c <> Str s q) \/ sto c = sto b) -> linked (put h i c).
Proof.
  intros H Hi Hc j d p o Hg Hs. pose proof (get_lt h i b Hi) as Li. rewrite get_put in Hg.
  assert (J : p < j /\ forall c s q, get h p = Some c -> sto c <> Str s q).
  { destruct (Nat.eqb_spec j i) as [->|]; cbn [andb] in Hg.
    - rewrite (proj2 (Nat.ltb_lt _ _) Li) in Hg. injection Hg as <-. destruct Hc as [[A _]|A]; [destruct (A p o Hs)|]. apply (H i b p o Hi). congruence.
    - apply (H j d p o Hg Hs). }
  destruct J as [J1 J2]. split; [exact J1|]. intros e s q He. rewrite get_put in He. destruct (Nat.eqb_spec p i) as [->|]; cbn [andb] in He; [|apply (J2 e s q He)].
  rewrite (proj2 (Nat.ltb_lt _ _) Li) in He. injection He as <-. destruct Hc as [[_ A]|A]; [apply A|]. rewrite A. apply (J2 b s q Hi).
Qed.
Lemma step_linked w o : sound w -> linked (bufs w) -> linked (bufs (fst (step w o))).
Proof.
  intros Hs H. apply step_P; try exact H; try exact Hs; try exact kept_linked.
  - intros b A _ _ _. apply linked_push; [exact H|]. intros p q X. destruct (A p q X).
  - intros i b off n E _ NS. apply linked_push; [exact H|]. intros p q X. cbn in X. injection X as <- _. split; [apply (get_lt _ _ _ E)|]. intros c s q' Hc. rewrite E in Hc. injection Hc as <-. apply NS.
  - intros. apply linked_push; [exact H|]. discriminate.
  - intros i b E. apply linked_push; [exact H|]. intros p q X. destruct (H i b p q E X) as [A B]. split; [pose proof (get_lt _ _ _ E); lia|exact B].
  - intros i b E L _. assert (HP : linked (put (bufs w) i (mkB Null 0 (ro b) (priv b) false))) by (apply (linked_put _ i b _ H E); left; split; discriminate).
    apply linked_push; [exact HP|]. intros p q X. destruct (H i b p q E X) as [A B]. rewrite put_len. split; [pose proof (get_lt _ _ _ E); lia|].
    intros c s q' Hc. rewrite get_put in Hc. destruct (Nat.eqb_spec p i); [lia|]. apply (B c s q' Hc).
  - intros i b c E _ A B _ _. apply (linked_put _ i b c H E). left. split; assumption.
  - intros i b f E _ _. apply (linked_put _ i b _ H E). right. reflexivity.
Qed.
Lemma linked_nil : linked [].
Proof. intros i b p o H. discriminate H. Qed.
Lemma run_linked l : forall w, sound w -> linked (bufs w) -> linked (bufs (run w l)).
Proof. induction l as [|o l IH]; intros w Hs H; [exact H|]. cbn [run]. apply IH; [apply step_sound, Hs|apply step_linked; assumption]. Qed.
Lemma reached_linked w : reached w -> linked (bufs w).
Proof. intros (ss & l & ->). apply run_linked; [constructor|exact linked_nil]. Qed.
(** Reading and placing, one buffer at a time *)
Lemma place_eq h : forall i b x, get h i = Some b -> (forall p o, sto b = Slice p o -> p < i) ->
  place h i x = match sto b with Null => None | Owned _ | Map _ => Some (Mem i, x) | Str s o => Some (Text s, o + x) | Slice p o => place h p (o + x) end.
Proof.
  induction h as [|c t IH]; intros i b x Hg Hp; [discriminate|]. cbn [get] in Hg. cbn [place] in *. destruct (Nat.eqb_spec i (length t)) as [->|N].
  - injection Hg as ->. destruct (sto b) as [| | | |p o]; try reflexivity. specialize (Hp p o eq_refl). destruct (Nat.eqb_spec p (length t)); [lia|reflexivity].
  - rewrite (IH i b x Hg Hp). destruct (sto b) as [| | | |p o]; try reflexivity. specialize (Hp p o eq_refl). pose proof (get_lt t i b Hg). destruct (Nat.eqb_spec p (length t)); [lia|reflexivity].
Qed.
Lemma read_eq ss h : forall i b, get h i = Some b -> (forall p o, sto b = Slice p o -> p < i) ->
  read ss h i = match sto b with
        | Null => Some []
        | Owned l => Some l
        | Map l => Some (firstn (Nat.min (size b) (length l)) l)
        | Str s o => match nth_error ss s with Some l => if o + size b <=? length l then Some (cut l o (size b)) else None | None => None end
        | Slice p o => match read ss h p with Some l => if o + size b <=? length l then Some (cut l o (size b)) else None | None => None end
        end.
Proof.
  induction h as [|c t IH]; intros i b Hg Hp; [discriminate|]. cbn [get] in Hg. cbn [read] in *. destruct (Nat.eqb_spec i (length t)) as [->|N].
  - injection Hg as ->. destruct (sto b) as [| | | |p o]; try reflexivity. specialize (Hp p o eq_refl). destruct (Nat.eqb_spec p (length t)); [lia|reflexivity].
  - rewrite (IH i b Hg Hp). destruct (sto b) as [| | | |p o]; try reflexivity. specialize (Hp p o eq_refl). pose proof (get_lt t i b Hg). destruct (Nat.eqb_spec p (length t)); [lia|reflexivity].
Qed.
Lemma linked_below h i b : linked h -> get h i = Some b -> forall p o, sto b = Slice p o -> p < i.
Proof. intros H Hg p o E. apply (H i b p o Hg E). Qed.
Lemma place_text h : linked h -> forall i b x s y, get h i = Some b -> place h i x = Some (Text s, y) -> exists o, sto b = Str s o.
Proof.
  intros H i. induction i as [i IH] using lt_wf_ind. intros b x s y Hg Hp. rewrite (place_eq h i b x Hg (linked_below h i b H Hg)) in Hp.
  destruct (sto b) as [| | |s' o'|p o] eqn:Es; try discriminate; [injection Hp as <- _; eauto|]. destruct (H i b p o Hg Es) as [L N].
  destruct (get_some h p) as [c Hc]; [pose proof (get_lt h i b Hg); lia|]. destruct (IH p L c (o + x) s y Hc Hp) as [q Q]. destruct (N c s q Hc Q).
Qed.

(** * The String behind a read-only buffer *)
Definition guarded (s : nat) (h : heap) : Prop := forall i b o, get h i = Some b -> sto b = Str s o -> ro b = true.
Lemma kept_guarded s : kept (guarded s).
Proof.
  intros h h' E H i b o Hg Hs. destruct (looks_get_some h h' i b E Hg) as (b0 & G0 & L0). pose proof (H i b0 o G0 (look_sto_str _ _ _ _ L0 Hs)). injection L0 as _ _ L _ _. congruence.
Qed.
Lemma guarded_push s h b : guarded s h -> (forall o, sto b = Str s o -> ro b = true) -> guarded s (b :: h).
Proof. intros H Hb i c o Hg. cbn [get] in Hg. destruct (i =? length h); [injection Hg as ->; apply Hb|apply (H i c o Hg)]. Qed.
Lemma guarded_put s h i b : guarded s h -> (forall o, sto b = Str s o -> ro b = true) -> guarded s (put h i b).
Proof. intros H Hb j c o Hg. rewrite get_put in Hg. destruct ((j =? i) && _); [injection Hg as <-; apply Hb|apply (H j c o Hg)]. Qed.
Lemma step_guarded s w o : sound w -> ~ touches s o -> guarded s (bufs w) -> guarded s (bufs (fst (step w o))).
Proof.
  intros Hs Ht H. apply step_P; try exact H; try exact Hs; try apply kept_guarded.
  - intros b _ A _ _. apply guarded_push; [exact H|]. intros q X. destruct (A s q X) as [R|(f & -> & R)]; [exact R|]. destruct f; [exact R|]. destruct Ht. right. reflexivity.
  - intros. apply guarded_push; [exact H|]. discriminate.
  - intros i b s' q q' n E Es. apply guarded_push; [exact H|]. cbn. intros o' X. injection X as -> _. apply (H i b q E Es).
  - intros i b E. apply guarded_push; [exact H|]. intros q X. apply (H i b q E X).
  - intros i b E _ _. apply guarded_push; [apply guarded_put; [exact H|discriminate]|]. intros q X. apply (H i b q E X).
  - intros i b c E _ A _ _ _. apply guarded_put; [exact H|]. intros q X. destruct (A s q X).
  - intros i b f E _ _. apply guarded_put; [exact H|]. cbn. intros q X. apply (H i b q E X).
Qed.
Lemma write_text ss h i o d ss' h' s b : linked h -> get h i = Some b -> (forall q, sto b <> Str s q) -> write ss h i o d = WOk ss' h' -> nth_error ss' s = nth_error ss s.
Proof.
  intros Hl Hg Hn Hw. destruct (write_effect h ss i o d ss' h' Hw) as (_ & H2 & _ & H4). specialize (H2 s).
  assert (C : forall y, nth_error (nth s ss' []) y = nth_error (nth s ss []) y).
  { intros y. apply (H4 (Text s) y). intros k Hk E. destruct (place_text h Hl i b (o + k) s y Hg E) as [q Q]. apply (Hn q Q). }
  destruct (nth_error ss s) as [a|] eqn:A, (nth_error ss' s) as [a'|] eqn:A'; try contradiction; [|reflexivity]. f_equal.
  rewrite (proj2 (error_nth ss s a A)), (proj2 (error_nth ss' s a' A')) in C. apply list_ext; [congruence|]. intros x _. apply C.
Qed.
Lemma write_none ss h i o d ss' h' : write ss h i o d = WOk ss' h' -> exists b, get h i = Some b.
Proof.
  revert ss' h'. induction h as [|c t IH]; intros ss' h'; cbn [write get]; [discriminate|]. destruct (i =? length t); [eauto|]. destruct (write ss t i o d) as [a b| |]; try discriminate. intros _. apply (IH a b eq_refl).
Qed.
Lemma wrote_text w i o d a s : linked (bufs w) -> guarded s (bufs w) -> (forall b, get (bufs w) i = Some b -> ro b = false) ->
  nth_error (strs (fst (wrote w (write (strs w) (bufs w) i o d) a))) s = nth_error (strs w) s.
Proof.
  intros Hl Hg Hr. destruct (write (strs w) (bufs w) i o d) as [ss' h'| |] eqn:E; try reflexivity. cbn. destruct (write_none _ _ _ _ _ _ _ E) as [b Hb].
  refine (write_text _ _ _ _ _ _ _ s b Hl Hb _ E). intros q Q. pose proof (Hg i b q Hb Q). rewrite (Hr b Hb) in H. discriminate.
Qed.
Lemma step_text s w o : sound w -> linked (bufs w) -> guarded s (bufs w) -> ~ touches s o -> s < length (strs w) -> nth_error (strs (fst (step w o))) s = nth_error (strs w) s.
Proof.
  intros Hs Hl Hg Ht Hlen. destruct o; cbn [step]; unfold with_buf, with_bytes, set_buf, push;
    repeat match goal with
    | |- context [strs (fst (if ?c then _ else _))] => let E := fresh "E" in destruct c eqn:E; [try reflexivity|try reflexivity]
    | |- context [strs (fst (match get ?h ?i with Some _ => _ | None => _ end))] => let E := fresh "E" in destruct (get h i) eqn:E; [|reflexivity]
    | |- context [strs (fst (match read ?s ?h ?i with Some _ => _ | None => _ end))] => let E := fresh "E" in destruct (read s h i) eqn:E; [|reflexivity]
    | |- context [strs (fst (match encode ?a ?b ?c ?d with Some _ => _ | None => _ end))] => destruct (encode a b c d); [|reflexivity]
    | |- context [strs (fst (match offset_length ?a ?b ?c with Some _ => _ | None => _ end))] => destruct (offset_length a b c) as [[? ?]|]; [|reflexivity]
    end; try reflexivity; try (apply (wrote_text w i _ _ _ s Hl Hg); congruence).
  - destruct (nth_error (strs w) s0) as [l|]; [|reflexivity]. cbn. apply nth_error_app1, Hlen.
  - destruct (nth_error (strs w) s0); reflexivity.
  - destruct (sto b); try reflexivity; cbn; try (destruct (read _ _ _); reflexivity). destruct (priv b); cbn; [|reflexivity]. destruct (read _ _ _); reflexivity.
  - destruct (sto b); reflexivity.
  - destruct (match src with Bytes l => Some l | Same s => nth_error (strs w) s end) as [m|]; [|reflexivity]. destruct (off <? 0)%Z; [reflexivity|]. cbv zeta.
    set (d := cut m _ _). clearbody d. destruct (Z.of_nat (size b) <? off)%Z; [reflexivity|]. destruct (Z.of_nat (size b) <? off + Z.of_nat (length d))%Z; [reflexivity|].
    assert (W : forall a, nth_error (strs (fst (wrote w (write (strs w) (bufs w) i (Z.to_nat off) d) a))) s = nth_error (strs w) s) by (intros a; apply wrote_text; try assumption; congruence).
    destruct (sto b) eqn:Es, src as [?|s']; try apply W. destruct (Nat.eqb_spec s0 s') as [<-|]; [|apply W]. cbn. rewrite nth_set_error.
    destruct (Nat.eqb_spec s s0) as [->|]; [|reflexivity]. pose proof (Hg i b o E Es). congruence.
  - cbn. rewrite nth_set_error. destruct (Nat.eqb_spec s s0) as [->|]; [|reflexivity]. destruct Ht. left. exists l. reflexivity.
Qed.
Definition shows (i s : nat) (n : nat) (h : heap) : Prop := exists b, get h i = Some b /\ sto b = Str s 0 /\ size b = n.
Lemma shows_push i s n h b : shows i s n h -> shows i s n (b :: h).
Proof. intros (c & G & H). exists c. split; [rewrite get_push; [exact G|apply (get_lt _ _ _ G)]|exact H]. Qed.

Lemma shows_put i s n h j b : shows i s n h -> (i = j -> sto b = Str s 0 /\ size b = n) -> shows i s n (put h j b).
Proof.
  intros (c & G & H) Hb. unfold shows. rewrite get_put. destruct (Nat.eqb_spec i j) as [->|]; cbn [andb]; [|eauto].
  rewrite (proj2 (Nat.ltb_lt _ _) (get_lt _ _ _ G)). exists b. split; [reflexivity|apply Hb; reflexivity].
Qed.
Lemma step_shows i s n w o : sound w -> ~ ends o i -> shows i s n (bufs w) -> shows i s n (bufs (fst (step w o))).
Proof.
  intros Hs Ht H. apply step_P; try exact H; try exact Hs.
  - intros h h' E (c & G & S1 & S2). pose proof (looks_get h h' i E) as L. rewrite G in L. destruct (get h' i) as [c'|] eqn:G'; [|discriminate]. exists c'. split; [exact G'|].
    injection L as L1 L2 _ _ _. rewrite S1 in L1. destruct (sto c'); cbn in L1; try discriminate. split; [exact L1|congruence].
  - intros. apply shows_push, H.
  - intros. apply shows_push, H.
  - intros. apply shows_push, H.
  - intros. apply shows_push, H.
  - intros j b E _ ->. apply shows_push, shows_put; [exact H|]. intros <-. destruct Ht. right. left. reflexivity.
  - intros j b c E _ _ _ _ T. apply shows_put; [exact H|]. intros <-. destruct T as [-> | [-> | (m & -> & A)]]; [destruct Ht; unfold ends; auto..|].
    destruct H as (b' & G & S1 & _). rewrite E in G. injection G as <-. destruct (A s 0 S1).
  - intros j b f E _ _. apply shows_put; [exact H|]. intros <-. destruct H as (b' & G & S1 & S2). rewrite E in G. injection G as <-. split; assumption.
Qed.
Lemma snapshot_run l : forall w s, sound w -> linked (bufs w) -> guarded s (bufs w) -> Forall (fun o => ~ touches s o) l -> s < length (strs w) ->
  nth_error (strs (run w l)) s = nth_error (strs w) s.
Proof.
  induction l as [|o l IH]; intros w s Hs Hl Hg Ht Hlen; [reflexivity|]. inversion Ht; subst. cbn [run]. pose proof (step_text s w o Hs Hl Hg ltac:(assumption) Hlen) as T.
  rewrite IH; [exact T|apply step_sound, Hs|apply step_linked; assumption|apply step_guarded; assumption|assumption|].
  apply nth_error_Some. rewrite T. apply nth_error_Some, Hlen.
Qed.
Lemma shows_run l : forall w i s n, sound w -> Forall (fun o => ~ ends o i) l -> shows i s n (bufs w) -> shows i s n (bufs (run w l)).
Proof. induction l as [|o l IH]; intros w i s n Hs Ht H; [exact H|]. inversion Ht; subst. cbn [run]. apply IH; [apply step_sound, Hs|assumption|apply step_shows; assumption]. Qed.
(** No buffer shows a String that is not there. *)
Definition inside (w : world) : Prop := forall i b s o, get (bufs w) i = Some b -> sto b = Str s o -> s < length (strs w).
Lemma step_len w o : length (strs w) <= length (strs (fst (step w o))).
Proof.
  assert (W : forall i o d a, length (strs w) <= length (strs (fst (wrote w (write (strs w) (bufs w) i o d) a)))).
  { intros i q d a. destruct (write (strs w) (bufs w) i q d) as [ss' h'| |] eqn:E; try reflexivity. cbn. destruct (write_effect _ _ _ _ _ _ _ E) as (_ & H2 & _).
    destruct (Nat.le_gt_cases (length (strs w)) (length ss')) as [A|A]; [exact A|]. specialize (H2 (length ss')).
    pose proof (proj2 (nth_error_None ss' (length ss')) (le_n _)) as N. pose proof (proj2 (nth_error_Some (strs w) (length ss')) A) as M.
    rewrite N in H2. destruct (nth_error (strs w) (length ss')); [contradiction|congruence]. }
  destruct o; cbn [step]; unfold with_buf, with_bytes, set_buf, push;
    repeat match goal with
    | |- context [strs (fst (if ?c then _ else _))] => let E := fresh "E" in destruct c eqn:E; [try reflexivity|try reflexivity]
    | |- context [strs (fst (match get ?h ?i with Some _ => _ | None => _ end))] => let E := fresh "E" in destruct (get h i) eqn:E; [|reflexivity]
    | |- context [strs (fst (match read ?s ?h ?i with Some _ => _ | None => _ end))] => let E := fresh "E" in destruct (read s h i) eqn:E; [|reflexivity]
    | |- context [strs (fst (match encode ?a ?b ?c ?d with Some _ => _ | None => _ end))] => destruct (encode a b c d); [|reflexivity]
    | |- context [strs (fst (match offset_length ?a ?b ?c with Some _ => _ | None => _ end))] => destruct (offset_length a b c) as [[? ?]|]; [|reflexivity]
    end; try reflexivity; try apply W.
  - destruct (nth_error (strs w) s) as [l|]; [|reflexivity]. cbn. rewrite app_length. lia.
  - destruct (nth_error (strs w) s); reflexivity.
  - destruct (sto b); try reflexivity; cbn; try (destruct (read _ _ _); reflexivity). destruct (priv b); cbn; [|reflexivity]. destruct (read _ _ _); reflexivity.
  - destruct (sto b); reflexivity.
  - destruct (match src with Bytes l => Some l | Same s => nth_error (strs w) s end) as [m|]; [|reflexivity]. destruct (off <? 0)%Z; [reflexivity|]. cbv zeta.
    set (d := cut m _ _). clearbody d. destruct (Z.of_nat (size b) <? off)%Z; [reflexivity|]. destruct (Z.of_nat (size b) <? off + Z.of_nat (length d))%Z; [reflexivity|].
    destruct (sto b) eqn:Es, src as [?|s']; try apply W. destruct (s =? s'); [|apply W]. cbn. rewrite set_nth_len. lia.
  - cbn. rewrite set_nth_len. lia.
Qed.

Lemma step_inside w o : sound w -> inside w -> inside (fst (step w o)).
Proof.
  intros Hs H. unfold inside. set (P := fun h => forall i b s q, get h i = Some b -> sto b = Str s q -> s < length (strs (fst (step w o)))). change (P (bufs (fst (step w o)))).
  assert (H0 : P (bufs w)) by (intros i b s q Hg Es; pose proof (H i b s q Hg Es); pose proof (step_len w o); lia).
  assert (PP : forall h b, P h -> (forall s q, sto b = Str s q -> s < length (strs (fst (step w o)))) -> P (b :: h)).
  { intros h b X Y i c s q Hg. cbn [get] in Hg. destruct (i =? length h); [injection Hg as ->; apply Y|apply (X i c s q Hg)]. }
  assert (PU : forall h i b, P h -> (forall s q, sto b = Str s q -> s < length (strs (fst (step w o)))) -> P (put h i b)).
  { intros h i b X Y j c s q Hg. rewrite get_put in Hg. destruct ((j =? i) && _); [injection Hg as <-; apply Y|apply (X j c s q Hg)]. }
  apply step_P; try exact H0; try exact Hs.
  - intros h h' E X i b s q Hg Es. destruct (looks_get_some h h' i b E Hg) as (b0 & G0 & L0). apply (X i b0 s q G0 (look_sto_str _ _ _ _ L0 Es)).
  - intros. apply PP; assumption.
  - intros. apply PP; [exact H0|discriminate].
  - intros i b s q q' n E Es. apply PP; [exact H0|]. cbn. intros s' q'' X. injection X as <- _. apply (H0 i b s q E Es).
  - intros i b E. apply PP; [exact H0|]. intros s q X. apply (H0 i b s q E X).
  - intros i b E _ _. apply PP; [apply PU; [exact H0|discriminate]|]. intros s q X. apply (H0 i b s q E X).
  - intros i b c E _ A _ _ _. apply PU; [exact H0|]. intros s q X. destruct (A s q X).
  - intros i b f E _ _. apply PU; [exact H0|]. cbn. intros s q X. apply (H0 i b s q E X).
Qed.
Lemma run_inside l : forall w, sound w -> inside w -> inside (run w l).
Proof. induction l as [|o l IH]; intros w Hs H; [exact H|]. cbn [run]. apply IH; [apply step_sound, Hs|apply step_inside; assumption]. Qed.
Lemma reached_inside w : reached w -> inside w.
Proof. intros (ss & l & ->). apply run_inside; [constructor|]. intros i b s o H. discriminate H. Qed.
(** IO::Buffer.for without a block *)
Lemma snapshot w s l ops : reached w -> nth_error (strs w) s = Some l ->
  let t := length (strs w) in let i := length (bufs w) in let w' := fst (step w (For s)) in
  snd (step w (For s)) = Val (ABuf i) /\
  (Forall (fun o => ~ touches t o) ops -> nth_error (strs (run w' ops)) t = Some l) /\
  (Forall (fun o => ~ touches t o /\ ~ ends o i) ops -> read (strs (run w' ops)) (bufs (run w' ops)) i = Some l).
Proof.
  intros Hr E t i w'. assert (Ew : step w (For s) = (mkW (strs w ++ [l]) (mkB (Str t 0) (length l) true false false :: bufs w), Val (ABuf i))) by (cbn; rewrite E; reflexivity).
  subst w'. rewrite Ew. cbn [fst snd]. split; [reflexivity|]. set (w' := mkW (strs w ++ [l]) _).
  assert (S1 : sound w') by (constructor; [exact I|apply (reached_sound w Hr)]).
  assert (S2 : linked (bufs w')) by (apply linked_push; [apply (reached_linked w Hr)|discriminate]).
  assert (S3 : guarded t (bufs w')) by (apply guarded_push; [|reflexivity]; intros j b o Hg Es; pose proof (reached_inside w Hr j b t o Hg Es); subst t; lia).
  assert (S4 : t < length (strs w')) by (cbn; rewrite app_length; cbn; subst t; lia).
  assert (S5 : nth_error (strs w') t = Some l) by (cbn; rewrite nth_error_app2 by (subst t; lia); replace (t - length (strs w)) with 0 by (subst t; lia); reflexivity).
  assert (A : Forall (fun o => ~ touches t o) ops -> nth_error (strs (run w' ops)) t = Some l) by (intros Ht; rewrite snapshot_run; assumption).
  split; [exact A|]. intros Ht.
  assert (T1 : Forall (fun o => ~ touches t o) ops) by (apply (Forall_impl _ (fun o H => proj1 H) Ht)).
  assert (T2 : Forall (fun o => ~ ends o i) ops) by (apply (Forall_impl _ (fun o H => proj2 H) Ht)).
  destruct (shows_run ops w' i t (length l) S1 T2) as (b & G & B1 & B2).
  { exists (mkB (Str t 0) (length l) true false false). split; [cbn; unfold i; rewrite Nat.eqb_refl; reflexivity|split; reflexivity]. }
  rewrite (read_eq _ _ i b G (linked_below _ i b (run_linked ops w' S1 S2) G)), B1, (A T1), B2, Nat.leb_refl. unfold cut. cbn [skipn]. rewrite firstn_all. reflexivity.
Qed.
(** * Free, transfer, resize, slice *)
Lemma read_low ss h : forall i b j, j < i -> read ss (put h i b) j = read ss h j.
Proof.
  induction h as [|c t IH]; intros i b j H; [reflexivity|]. cbn [put]. destruct (Nat.eqb_spec i (length t)) as [->|N]; cbn [read].
  - destruct (Nat.eqb_spec j (length t)); [lia|reflexivity].
  - rewrite put_len. destruct (Nat.eqb_spec j (length t)) as [->|]; [|apply IH, H]. assert (put t i b = t) as ->; [|reflexivity].
    assert (G : forall u k, length u < k -> put u k b = u). { induction u as [|y u IHu]; intros k Hk; cbn in *; [reflexivity|]. destruct (Nat.eqb_spec k (length u)); [lia|]. rewrite IHu by lia. reflexivity. }
    apply G. lia.
Qed.
Lemma read_push ss h b j : j < length h -> read ss (b :: h) j = read ss h j.
Proof. intros H. cbn. destruct (Nat.eqb_spec j (length h)); [lia|reflexivity]. Qed.
Lemma read_null ss h i b c : get h i = Some b -> sto c = Null -> read ss (put h i c) i = Some [].
Proof.
  intros Hg Hc. assert (G : get (put h i c) i = Some c) by (rewrite get_put, Nat.eqb_refl, (proj2 (Nat.ltb_lt _ _) (get_lt _ _ _ Hg)); reflexivity).
  rewrite (read_eq ss _ i c G); [rewrite Hc; reflexivity|rewrite Hc; discriminate].
Qed.
Lemma orphan ss h i b c j d o : linked h -> get h i = Some b -> sto c = Null -> get h j = Some d -> sto d = Slice i o -> 0 < size d -> read ss (put h i c) j = None.
Proof.
  intros Hl Hi Hc Hj Es Hz. destruct (Hl j d i o Hj Es) as [L _]. assert (G : get (put h i c) j = Some d) by (rewrite get_put; destruct (Nat.eqb_spec j i); [lia|exact Hj]).
  rewrite (read_eq ss _ j d G); [|intros p q X; rewrite Es in X; injection X as <- _; exact L]. rewrite Es, (read_null ss h i b c Hi Hc). cbn [length].
  destruct (Nat.leb_spec (o + size d) 0); [lia|reflexivity].
Qed.
Lemma free_ok w i b : reached w -> get (bufs w) i = Some b -> locked b = false ->
  let w' := fst (step w (Free i)) in snd (step w (Free i)) = Val (ABuf i) /\ read (strs w') (bufs w') i = Some [] /\
  (forall j d o, get (bufs w) j = Some d -> sto d = Slice i o -> 0 < size d -> read (strs w') (bufs w') j = None) /\
  (forall j, j < i -> read (strs w') (bufs w') j = read (strs w) (bufs w) j).
Proof.
  intros Hr Hg Hl. cbn [step]. unfold with_buf, set_buf. rewrite Hg, Hl. cbn [fst snd strs bufs]. split; [reflexivity|]. split; [apply (read_null _ _ _ b _ Hg); reflexivity|]. split.
  - intros j d o Hj Es Hz. apply (orphan _ _ i b null j d o (reached_linked w Hr) Hg eq_refl Hj Es Hz).
  - intros j Hj. apply read_low, Hj.
Qed.
Lemma transfer_ok w i b l : reached w -> get (bufs w) i = Some b -> locked b = false -> read (strs w) (bufs w) i = Some l ->
  let w' := fst (step w (Transfer i)) in let k := length (bufs w) in
  snd (step w (Transfer i)) = Val (ABuf k) /\ read (strs w') (bufs w') k = Some l /\ option_map ro (get (bufs w') k) = Some (ro b) /\ read (strs w') (bufs w') i = Some [] /\
  (forall j d o, get (bufs w) j = Some d -> sto d = Slice i o -> 0 < size d -> read (strs w') (bufs w') j = None).
Proof.
  intros Hr Hg Hl Hrd. pose proof (get_lt _ _ _ Hg) as Li. cbn [step]. unfold with_buf, set_buf, push. rewrite Hg, Hl. cbn [fst snd strs bufs]. rewrite put_len. split; [reflexivity|].
  set (c := mkB Null 0 (ro b) (priv b) false).
  assert (G : get (b :: put (bufs w) i c) (length (bufs w)) = Some b) by (cbn; rewrite put_len, Nat.eqb_refl; reflexivity).
  pose proof (linked_below _ i b (reached_linked w Hr) Hg) as B.
  split; [|split; [|split]].
  - rewrite (read_eq (strs w) _ _ b G) by (intros p o Es; pose proof (B p o Es); lia). rewrite (read_eq (strs w) _ i b Hg B) in Hrd.
    destruct (sto b) as [| | | |p o] eqn:Es; try exact Hrd. pose proof (B p o eq_refl) as Lp. rewrite read_push by (rewrite put_len; lia). rewrite read_low by exact Lp. exact Hrd.
  - rewrite G. reflexivity.
  - rewrite read_push by (rewrite put_len; lia). apply (read_null _ _ _ b _ Hg); reflexivity.
  - intros j d o Hj Es Hz. rewrite read_push by (rewrite put_len; apply (get_lt _ _ _ Hj)). apply (orphan _ _ i b c j d o (reached_linked w Hr) Hg eq_refl Hj Es Hz).
Qed.
Lemma resize_ok w i b l n : reached w -> get (bufs w) i = Some b -> locked b = false -> read (strs w) (bufs w) i = Some l ->
  match sto b with Null | Owned _ => True | Map _ => priv b = true | _ => False end -> 
  let w' := fst (step w (Resize i (Z.of_nat n))) in
  snd (step w (Resize i (Z.of_nat n))) = Val (ABuf i) /\ read (strs w') (bufs w') i = Some (firstn n l ++ repeat 0%Z (n - length l)).
Proof.
  intros Hr Hg Hl Hrd Hs. cbn [step]. unfold with_buf, with_bytes, set_buf. rewrite Hg, Hl, Hrd. destruct (Z.ltb_spec (Z.of_nat n) 0); [lia|]. rewrite Nat2Z.id.
  set (m := firstn n l ++ repeat 0%Z (n - length l)). assert (Lm : length m = n) by (subst m; rewrite app_length, firstn_length, repeat_length; lia). clearbody m.
  assert (G : forall b', (forall p o, sto (match n with O => null | _ => b' end) <> Slice p o) -> (n <> 0 -> sto b' = Owned m) -> read (strs w) (put (bufs w) i (match n with O => null | _ => b' end)) i = Some m).
  { intros b' A B. set (c := match n with O => null | _ => b' end) in *. assert (G : get (put (bufs w) i c) i = Some c) by (rewrite get_put, Nat.eqb_refl, (proj2 (Nat.ltb_lt _ _) (get_lt _ _ _ Hg)); reflexivity).
    rewrite (read_eq (strs w) _ i c G) by (intros p o X; destruct (A p o X)). subst c. destruct n as [|n]; [destruct m; [reflexivity|discriminate]|]. rewrite B by discriminate. reflexivity. }
  destruct (sto b); try contradiction; [| |rewrite Hs]; cbn [negb fst snd strs bufs]; (split; [reflexivity|]); (apply G; [destruct n; discriminate|reflexivity]).
Qed.
Lemma slice_ok w i b off len j : reached w -> get (bufs w) i = Some b -> snd (step w (SliceOf i off len)) = Val (ABuf j) ->
  let w' := fst (step w (SliceOf i off len)) in j = length (bufs w) /\
  exists o d, off = Z.of_nat o /\ get (bufs w') j = Some d /\ size d = match len with Some n => Z.to_nat n | None => size b - o end /\ o + size d <= size b /\ ro d = (match sto b with Null => false | _ => ro b end) /\
  (forall x, place (bufs w') j x = place (bufs w') i (o + x)) /\ (forall k x, k < j -> place (bufs w') k x = place (bufs w) k x) /\
  (forall l, read (strs w) (bufs w) i = Some l -> read (strs w') (bufs w') j = Some (cut l o (size d))).
Proof.
  intros Hr Hg. pose proof (get_lt _ _ _ Hg) as Li. pose proof (reached_linked w Hr) as Hl. pose proof (reached_sound w Hr) as Hf. cbn [step]. unfold with_buf, push. rewrite Hg. destruct (offset_length (size b) off len) as [[o n]|] eqn:O; [|discriminate].
  destruct (offset_spec _ _ _ _ _ O) as (B1 & B2 & B3). 
  assert (E : exists d, (match sto b with
          | Null => (mkW (strs w) (null :: bufs w), Val (ABuf (length (bufs w))))
          | Str s base => (mkW (strs w) (mkB (Str s (base + o)) n (ro b) false false :: bufs w), Val (ABuf (length (bufs w))))
          | _ => (mkW (strs w) (mkB (Slice i o) n (ro b) false false :: bufs w), Val (ABuf (length (bufs w))))
          end) = (mkW (strs w) (d :: bufs w), Val (ABuf (length (bufs w)))) /\
          d = match sto b with Null => null | Str s base => mkB (Str s (base + o)) n (ro b) false false | _ => mkB (Slice i o) n (ro b) false false end).
  { destruct (sto b); eauto. }
  destruct E as (d & -> & Ed). cbn [fst snd strs bufs]. intros [= <-]. split; [reflexivity|]. exists o, d. split; [exact B2|].
  assert (G : get (d :: bufs w) (length (bufs w)) = Some d) by (cbn; rewrite Nat.eqb_refl; reflexivity). split; [exact G|].
  assert (Sz : sto b = Null -> size b = 0) by (intros E; pose proof (get_fits _ _ _ Hf Hg) as F; unfold fits in F; rewrite E in F; exact F).
  assert (Sn : size d = n) by (subst d; destruct (sto b); try reflexivity; cbn; specialize (Sz eq_refl); lia). split; [|split; [|split; [|split; [|split]]]].
  - rewrite Sn. destruct len as [z|]; lia.
  - lia.
  - subst d. destruct (sto b); reflexivity.
  - intros x. rewrite (place_eq _ _ d x G) by (intros p q X; subst d; destruct (sto b); cbn in X; try discriminate; injection X as <- _; lia).
    assert (Gi : get (d :: bufs w) i = Some b) by (rewrite get_push by exact Li; exact Hg).
    rewrite (place_eq _ i b (o + x) Gi (linked_below _ i b Hl Hg)). subst d. destruct (sto b) as [| | |s q|p q] eqn:Es; cbn [sto null].
    + reflexivity.
    + rewrite (place_eq _ i b (o + x) Gi (linked_below _ i b Hl Hg)), Es. reflexivity.
    + rewrite (place_eq _ i b (o + x) Gi (linked_below _ i b Hl Hg)), Es. reflexivity.
    + do 2 f_equal. lia.
    + rewrite (place_eq _ i b (o + x) Gi (linked_below _ i b Hl Hg)), Es. reflexivity.
  - intros k x Hk. cbn [place]. destruct (Nat.eqb_spec k (length (bufs w))); [lia|reflexivity].
  - intros l Hrd. pose proof (read_size _ _ _ _ _ Hf Hrd Hg) as Ll. rewrite Sn.
    rewrite (read_eq _ _ _ d G) by (intros p q X; subst d; destruct (sto b); cbn in X; try discriminate; injection X as <- _; lia).
    assert (SL : sto d = Slice i o -> match sto d with Slice p q => match read (strs w) (d :: bufs w) p with Some l => if q + size d <=? length l then Some (cut l q (size d)) else None | None => None end | _ => None end = Some (cut l o n)).
    { intros ->. rewrite read_push by exact Li. rewrite Hrd, Sn. destruct (Nat.leb_spec (o + n) (length l)); [reflexivity|lia]. }
    rewrite (read_eq _ _ i b Hg (linked_below _ i b Hl Hg)) in Hrd. destruct (sto b) as [| | |s q|p q] eqn:Es; subst d; try (apply SL; reflexivity).
    + injection Hrd as <-. cbn. unfold cut. rewrite skipn_nil, firstn_nil. reflexivity.
    + cbn [sto size]. destruct (nth_error (strs w) s) as [m|]; [|discriminate]. destruct (Nat.leb_spec (q + size b) (length m)); [|discriminate]. injection Hrd as <-.
      destruct (Nat.leb_spec (q + o + n) (length m)); [|lia]. f_equal. apply list_ext; [rewrite !cut_len; try lia; rewrite cut_len; lia|].
      intros x Hx. rewrite cut_len in Hx by lia. rewrite !nth_cut by lia. f_equal. lia.
Qed.
Lemma read_bytes_ok w i l : reached w -> read (strs w) (bufs w) i = Some l ->
  exists b, get (bufs w) i = Some b /\ length l = size b /\ forall x, x < size b -> nth_error l x = match place (bufs w) i x with Some (c, y) => content (strs w) (bufs w) c y | None => None end.
Proof. intros Hr. apply (read_place _ _ (reached_sound w Hr)). Qed.
Lemma no_panic_reached w o : reached w -> snd (step w o) = Panic -> exists i, unchecked o = Some i /\ ~ readable w i.
Proof. intros Hr. apply no_panic, (reached_sound w Hr). Qed.
