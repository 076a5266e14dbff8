(** The writer: what its tables grow by, that it terminates, and that it reaches
    every object. *)
From Coq Require Import String Ascii ZArith List Bool Lia.
From Verif Require Import Utf8Spec Utf8Model Utf8Proofs IdModel EncModel MarshalModel MarshalSpec MarshalProofs.
From Verif Require ValueModel.
Import ListNotations.
Open Scope Z_scope.
Local Arguments ascii : simpl never.
Local Arguments bs : simpl never.
Local Arguments w_bignum : simpl never.
Local Arguments Z.pow : simpl never.
Local Opaque w_fixnum.

Lemma same_id_iff x y : same_id x y = true <-> x = y.
Proof.
  split.
  - destruct x, y; cbn; try discriminate; intros h; try reflexivity.
    + apply Bool.eqb_prop in h. now subst.
    + apply Z.eqb_eq in h. now subst.
    + apply Z.eqb_eq in h. now subst.
    + destruct (sym_dec s s0); [now subst | discriminate].
    + apply Nat.eqb_eq in h. now subst.
  - intros <-. destruct x; cbn; auto using Bool.eqb_reflx, Z.eqb_refl, Nat.eqb_refl.
    destruct (sym_dec s s); auto.
Qed.

(** The addresses in the link table. *)
Fixpoint refs (l : list val) : list nat :=
  match l with [] => [] | VRef a :: t => a :: refs t | _ :: t => refs t end.
Lemma refs_app l r : refs (l ++ r) = refs l ++ refs r.
Proof. induction l as [|[] l IH]; cbn; congruence. Qed.
Lemma refs_in a l : In a (refs l) <-> In (VRef a) l.
Proof.
  induction l as [|v l IH]; [reflexivity|]. destruct v; cbn; rewrite IH; split; try tauto;
    (intros [q|q]; [try discriminate; try (injection q as <-)|]; auto).
Qed.
Lemma refs_nodup l : NoDup l -> NoDup (refs l).
Proof.
  induction 1 as [|v l hv hl IH]; [constructor|]. destruct v; cbn; auto. constructor; auto. now rewrite refs_in.
Qed.

Section Writer.
Variable h : heap.

(** The entries of the link table. *)
Definition entry (v : val) : Prop := match v with VFlo _ => True | VRef a => (a < length h)%nat | _ => False end.
Definition tbl (ob : list val) : Prop := NoDup ob /\ Forall entry ob.

(** [w] extends the tables, by [k] less than it writes. *)
Definition slack (k : Z) (w : W) : Prop := forall sy ob out s', w (sy, ob) = Some (out, s') ->
  exists nsy nob, s' = (sy ++ nsy, ob ++ nob) /\ len nsy + k <= len out /\ len nob + k <= len out /\
                  (tbl ob -> tbl (ob ++ nob)).

Lemma slack_put l : slack (len l) (wput l).
Proof.
  intros sy ob out s' e. injection e as <- <-. exists [], []. rewrite !app_nil_r. cbn [length].
  split; [reflexivity|]. split; [lia|]. split; [lia|auto].
Qed.
Lemma slack_le k k' w : k' <= k -> slack k w -> slack k' w.
Proof.
  intros hk hw sy ob out s' e. destruct (hw _ _ _ _ e) as (a & b & e1 & e2 & e3 & e4).
  exists a, b. split; [exact e1|]. split; [lia|]. split; [lia|exact e4].
Qed.
Lemma slack_put' l k : k <= len l -> slack k (wput l).
Proof. intros. eapply slack_le; [|apply slack_put]. auto. Qed.
Lemma len_app {A} (a b : list A) : len (a ++ b) = len a + len b.
Proof. now rewrite app_length, Nat2Z.inj_add. Qed.
Lemma slack_seq j k a b : slack j a -> slack k b -> slack (j + k) (wseq a b).
Proof.
  intros ha hb sy ob out s' e. apply wseq_inv in e as (o1 & s1 & o2 & e1 & e2 & ->).
  destruct (ha _ _ _ _ e1) as (n1 & m1 & -> & ? & ? & t1). destruct (hb _ _ _ _ e2) as (n2 & m2 & -> & ? & ? & t2).
  exists (n1 ++ n2), (m1 ++ m2). rewrite !app_assoc. rewrite !len_app.
  split; [reflexivity|]. split; [lia|]. split; [lia|auto].
Qed.
Lemma slack_push s : slack (-1) (push_sym s).
Proof.
  intros sy ob out s' e. injection e as <- <-. exists [s], []. rewrite app_nil_r. cbn [length].
  split; [reflexivity|]. split; [lia|]. split; [lia|auto].
Qed.
Lemma slack_symlink s w : slack 1 w -> slack 1 (w_symlink s w).
Proof.
  intros hw sy ob out s' e. unfold w_symlink in e. destruct (position _ _ _) as [i|]; [|now apply hw].
  injection e as <- <-. exists [], []. rewrite !app_nil_r. cbn [app length].
  pose proof (w_fixnum_len (to_i32 i)). split; [reflexivity|]. split; [lia|]. split; [lia|auto].
Qed.
Lemma slack_symbol0 s : slack 1 (w_symbol0 s).
Proof.
  apply slack_symlink. replace 1 with (2 + -1) by lia. apply slack_seq; [|apply slack_push].
  apply slack_put'. rewrite !len_app. pose proof (w_fixnum_len (len_i32 (sym_bytes s))). cbn [length]. lia.
Qed.
Lemma slack_enc_pair e : slack 2 (w_enc_pair e).
Proof.
  assert (A : forall s l, 1 <= len l -> slack 2 (wseq (w_symbol0 s) (wput l))).
  { intros. replace 2 with (1 + 1) by lia. apply slack_seq; [apply slack_symbol0|]. apply slack_put'; lia. }
  destruct e; cbn [w_enc_pair]; apply A; cbn [length app]; lia.
Qed.
Lemma slack_symbol s : slack 1 (w_symbol s).
Proof.
  unfold w_symbol. destruct (_ || _); [apply slack_symbol0|]. apply slack_symlink.
  eapply slack_le; [|apply slack_seq; [apply slack_put|apply slack_seq; [apply slack_push|apply slack_seq; [apply slack_put|apply slack_enc_pair]]]].
  rewrite !len_app. cbn [length]. pose proof (w_fixnum_len 1). lia.
Qed.
Lemma NoDup_snoc {A} (l : list A) x : NoDup l -> ~ In x l -> NoDup (l ++ [x]).
Proof.
  induction 1 as [|y l hy hl IH]; cbn; intros hx; [repeat constructor; auto|].
  constructor; [|apply IH; tauto]. rewrite in_app_iff. cbn. intros [?|[?|[]]]; subst; tauto.
Qed.
Lemma position_id v ob : match position (fun x => same_id x v) ob 0 with
  | Some i => 0 <= i < len ob /\ nth_error ob (Z.to_nat i) = Some v
  | None => ~ In v ob end.
Proof.
  pose proof (position_spec (fun x => same_id x v) ob 0) as P. destruct (position _ ob 0) as [i|].
  - destruct P as [P1 (x & P2 & P3)]. apply same_id_iff in P3. subst. rewrite Z.sub_0_r in P2. auto.
  - rewrite Forall_forall in P. intros hi. apply P in hi. rewrite (proj2 (same_id_iff v v) eq_refl) in hi. discriminate.
Qed.
Lemma tbl_snoc ob v : tbl ob -> entry v -> ~ In v ob -> tbl (ob ++ [v]).
Proof. intros [a b] c d. split; [now apply NoDup_snoc|]. apply Forall_app. auto. Qed.
Lemma slack_linked v k w : entry v -> slack (k + 1) w -> k <= 1 -> slack k (w_linked v w).
Proof.
  intros hv hw hk sy ob out s' e. unfold w_linked in e. cbn [fst snd] in e.
  pose proof (position_id v ob) as P. destruct (position _ ob 0) as [i|].
  - injection e as <- <-. exists [], []. rewrite !app_nil_r. cbn [app length].
    pose proof (w_fixnum_len (to_i32 i)). split; [reflexivity|]. split; [lia|]. split; [lia|auto].
  - destruct (hw _ _ _ _ e) as (n1 & m1 & -> & ? & ? & t). exists n1, (v :: m1).
    replace (ob ++ v :: m1) with ((ob ++ [v]) ++ m1) by now rewrite <- app_assoc. cbn [length].
    split; [reflexivity|]. split; [lia|]. split; [lia|]. intros T. apply t. now apply tbl_snoc.
Qed.
Lemma slack_list {A} (d : A -> W) k l : (forall x, In x l -> slack k (d x)) -> slack (k * len l) (w_list d l).
Proof.
  induction l as [|x l IH]; intros hd; cbn [w_list].
  - apply slack_put'. cbn. lia.
  - eapply slack_le; [|apply slack_seq; [apply hd; now left | apply IH; intros; apply hd; now right]].
    cbn [length]. lia.
Qed.
Lemma slack_put0 l : slack 0 (wput l). Proof. apply slack_put'. lia. Qed.
Lemma slack_class c : slack 0 (w_class c).
Proof.
  destruct c; cbn [w_class]; [|apply slack_put0].
  eapply slack_le; [|apply slack_seq; [apply slack_put | apply slack_symbol]]. cbn. lia.
Qed.
Definition good (d : val -> W) : Prop := forall v, slack 1 (d v).
Lemma slack_ivars d iv : good d -> slack (2 * len iv) (w_ivars d iv).
Proof. intros hd. apply slack_list. intros. apply (slack_seq 1 1); [apply slack_symbol | apply hd]. Qed.
Lemma slack_ivar_block d iv : good d -> slack 0 (w_ivar_block d iv).
Proof.
  intros hd. destruct iv as [|p iv]; cbn [w_ivar_block]; [apply slack_put0|].
  eapply slack_le; [|apply slack_seq; [apply slack_put0 | now apply slack_ivars]]. lia.
Qed.
Lemma slack_I iv : slack 0 (w_I iv). Proof. destruct iv; apply slack_put0. Qed.
Lemma slack_fix_tag t n : slack 2 (wput ([t] ++ w_fixnum n)).
Proof. apply slack_put'. rewrite len_app. pose proof (w_fixnum_len n). cbn [length]. lia. Qed.
Lemma slack_blob t n l : slack 2 (wput ([t] ++ w_fixnum n ++ l)).
Proof. apply slack_put'. rewrite !len_app. pose proof (w_fixnum_len n). cbn [length]. lia. Qed.
Lemma slack_if {b : bool} k x y : slack k x -> slack k y -> slack k (if b then x else y).
Proof. destruct b; auto. Qed.
Lemma tbl_refs ob : tbl ob -> NoDup (refs ob) /\ forall a, In a (refs ob) -> (a < length h)%nat.
Proof.
  intros [a b]. split; [now apply refs_nodup|]. intros x hx. apply refs_in in hx. rewrite Forall_forall in b. exact (b _ hx).
Qed.
Lemma refs_bound ob : tbl ob -> (length (refs ob) <= length h)%nat.
Proof.
  intros t. apply tbl_refs in t as [a b]. rewrite <- (seq_length (length h) 0).
  apply NoDup_incl_length; auto. intros x hx. apply in_seq. specialize (b x hx). lia.
Qed.

Variable fmt : Z -> list Z.
Notation dumpv n := (dump_value fmt n h).
Lemma slack_body d o : good d -> slack 2 (w_body fmt d o).
Proof.
  intros hd.
  assert (hp : forall l, slack 0 (w_list d l)).
  { intros l. eapply slack_le; [|apply (slack_list d 1)]; [lia|]. intros; apply hd. }
  assert (hq : forall l, slack 0 (w_list (fun p => wseq (d (fst p)) (d (snd p))) l)).
  { intros l. eapply slack_le; [|apply (slack_list (fun p => wseq (d (fst p)) (d (snd p))) (1 + 1))]; [lia|].
    intros. apply slack_seq; apply hd. }
  assert (hi : forall iv, slack 0 (w_ivars d iv)).
  { intros iv. eapply slack_le; [|now apply slack_ivars]. lia. }
  destruct o as [n|b|c b e iv|c l iv|c l df i iv|c iv|src opt e iv]; cbn [w_body].
  - unfold w_bignum. cbv zeta. apply slack_put'. rewrite !len_app. cbn [length]. lia.
  - unfold w_float. apply slack_blob.
  - apply (slack_seq 0 2); [destruct (0 <? _); apply slack_put0|]. apply (slack_seq 0 2); [apply slack_class|].
    apply (slack_seq 2 0); [apply slack_blob|]. apply slack_if; [|apply slack_put0].
    apply (slack_seq 0 0); [apply slack_put0|]. apply (slack_seq 0 0); [|auto].
    apply slack_if; [|apply slack_put0]. eapply slack_le; [|apply slack_enc_pair]; lia.
  - apply (slack_seq 0 2); [apply slack_I|]. apply (slack_seq 0 2); [apply slack_class|].
    apply (slack_seq 2 0); [apply slack_fix_tag|]. apply (slack_seq 0 0); [auto|]. now apply slack_ivar_block.
  - apply (slack_seq 0 2); [apply slack_I|]. apply (slack_seq 0 2); [apply slack_class|].
    apply (slack_seq 0 2).
    { apply slack_if; [|apply slack_put0]. eapply slack_le; [|apply slack_seq; [apply slack_put | apply slack_symbol]]. cbn. lia. }
    apply (slack_seq 2 0); [apply slack_fix_tag|]. apply (slack_seq 0 0); [auto|]. apply (slack_seq 0 0); [|now apply slack_ivar_block].
    destruct df; [|apply slack_put0]. eapply slack_le; [|apply hd]. lia.
  - eapply slack_le; [|apply slack_seq; [apply slack_put | apply slack_seq; [apply slack_symbol | apply slack_seq; [apply slack_put0 | apply hi]]]].
    cbn. lia.
  - apply (slack_seq 2 0); [apply slack_put'; cbn [app length]; lia|].
    apply (slack_seq 0 0); [apply slack_put0|]. apply (slack_seq 0 0); [|auto].
    eapply slack_le; [|apply slack_enc_pair]; lia.
Qed.
Lemma slack_none k : slack k (fun _ => None). Proof. intros sy ob out s' e. discriminate. Qed.
Lemma dump_slack n : good (dumpv n).
Proof.
  induction n as [|n IH]; intros v; [apply slack_none|]. cbn [dump_value].
  destruct v as [|[]|k|b|s|a]; try (apply slack_put'; cbn; lia).
  - destruct (in30 k); apply slack_put'; unfold w_bignum; cbv zeta; rewrite ?len_app; cbn [length]; lia.
  - apply slack_linked; cbn; auto; try lia. unfold w_float. apply slack_blob.
  - apply slack_symbol.
  - destruct (nth_error h a) as [o|] eqn:E; [|apply slack_none].
    assert (L : slack 1 (w_linked (VRef a) (w_body fmt (dumpv n) o))).
    { apply slack_linked; [|apply slack_body; auto|lia]. cbn. apply nth_error_Some. congruence. }
    destruct o; try exact L. destruct (in30 n0); [|exact L]. apply slack_put'. rewrite len_app. cbn [length]. lia.
Qed.

(** * Every object is reached *)
Definition isref (v : val) : Prop := match v with VRef _ => True | _ => False end.
Definition kids (a : nat) : list val := match nth_error h a with Some o => slots o | None => [] end.
(** [w] enters the references among [vs], and with every new object those of its slots. *)
Definition clo (w : W) (vs : list val) : Prop := forall sy ob out sy' ob', w (sy, ob) = Some (out, (sy', ob')) ->
  incl ob ob' /\ (forall v, In v vs -> isref v -> In v ob') /\
  (forall a, In (VRef a) ob' -> In (VRef a) ob \/ forall v, In v (kids a) -> isref v -> In v ob').
Lemma clo_put l : clo (wput l) [].
Proof. intros sy ob out sy' ob' e. injection e as <- <- <-. split; [apply incl_refl|]. split; [intros v []|]. auto. Qed.
Lemma clo_seq a b x y : clo a x -> clo b y -> clo (wseq a b) (x ++ y).
Proof.
  intros ha hb sy ob out sy' ob' e. winv e. destruct s as [sy1 ob1].
  destruct (ha _ _ _ _ _ w) as (i1 & j1 & k1). destruct (hb _ _ _ _ _ w0) as (i2 & j2 & k2).
  split; [eapply incl_tran; eauto|]. split.
  - intros v hv hr. apply in_app_iff in hv as [hv|hv]; auto.
  - intros c hc. destruct (k2 c hc) as [hc'|hc']; [|now right]. destruct (k1 c hc') as [q|q]; [now left|].
    right. intros v hv hr. apply i2. auto.
Qed.
Lemma clo_nil a b y : clo a [] -> clo b y -> clo (wseq a b) y.
Proof. apply (clo_seq a b [] y). Qed.
Lemma clo_nilr a b x : clo a x -> clo b [] -> clo (wseq a b) x.
Proof. intros. rewrite <- (app_nil_r x). now apply clo_seq. Qed.
Lemma clo_push s : clo (push_sym s) [].
Proof. intros sy ob out sy' ob' e. injection e as <- <- <-. split; [apply incl_refl|]. split; [intros v []|]. auto. Qed.
Lemma clo_symlink s w : clo w [] -> clo (w_symlink s w) [].
Proof.
  intros hw sy ob out sy' ob' e. unfold w_symlink in e. destruct (position _ _ _); [|eapply hw; eauto].
  injection e as <- <- <-. split; [apply incl_refl|]. split; [intros v []|]. auto.
Qed.
Lemma clo_symbol0 s : clo (w_symbol0 s) [].
Proof. apply clo_symlink, clo_nil; [apply clo_put | apply clo_push]. Qed.
Lemma clo_enc_pair e : clo (w_enc_pair e) [].
Proof. destruct e; cbn [w_enc_pair]; (apply clo_nil; [apply clo_symbol0 | apply clo_put]). Qed.
Lemma clo_symbol s : clo (w_symbol s) [].
Proof.
  unfold w_symbol. destruct (_ || _); [apply clo_symbol0|]. apply clo_symlink.
  repeat (apply clo_nil; [first [apply clo_put | apply clo_push]|]). apply clo_enc_pair.
Qed.
Lemma clo_list {A} (d : A -> W) (g : A -> list val) l : (forall x, clo (d x) (g x)) -> clo (w_list d l) (flat_map g l).
Proof. intros hd. induction l; cbn [w_list flat_map]; [apply clo_put | now apply clo_seq]. Qed.
Lemma clo_class c : clo (w_class c) [].
Proof. destruct c; [|apply clo_put]. apply clo_nil; [apply clo_put | apply clo_symbol]. Qed.
Definition cgood (d : val -> W) : Prop := forall v, clo (d v) [v].
Lemma flat_one {A B} (g : A -> B) l : flat_map (fun x => [g x]) l = map g l.
Proof. induction l; cbn; congruence. Qed.
Lemma clo_ivars d iv : cgood d -> clo (w_ivars d iv) (map snd iv).
Proof.
  intros hd. rewrite <- flat_one. apply clo_list. intros. apply clo_nil; [apply clo_symbol | apply hd].
Qed.
Lemma clo_ivar_block d iv : cgood d -> clo (w_ivar_block d iv) (map snd iv).
Proof.
  intros hd. destruct iv; [apply clo_put|]. apply clo_nil; [apply clo_put | now apply clo_ivars].
Qed.
Lemma clo_I iv : clo (w_I iv) []. Proof. destruct iv; apply clo_put. Qed.
Lemma clo_body d o : cgood d -> clo (w_body fmt d o) (slots o).
Proof.
  intros hd.
  assert (hl : forall l, clo (w_list d l) l).
  { intros l. rewrite <- (map_id l) at 2. rewrite <- flat_one. apply clo_list, hd. }
  destruct o as [n|b|c b e iv|c l iv|c l df i iv|c iv|src opt e iv]; cbn [w_body slots]; try apply clo_put.
  - apply clo_nil; [destruct (0 <? _); apply clo_put|]. apply clo_nil; [apply clo_class|].
    apply clo_nil; [apply clo_put|]. destruct (0 <? _) eqn:E.
    + apply clo_nil; [apply clo_put|]. apply clo_nil; [|now apply clo_ivars].
      destruct (match e with Ascii8 => false | _ => true end); [apply clo_enc_pair | apply clo_put].
    + apply Z.ltb_ge in E. destruct iv; [apply clo_put|]. cbn [length] in E. destruct e; cbn in E; lia.
  - apply clo_nil; [apply clo_I|]. apply clo_nil; [apply clo_class|]. apply clo_nil; [apply clo_put|].
    apply clo_seq; [auto | now apply clo_ivar_block].
  - apply clo_nil; [apply clo_I|]. apply clo_nil; [apply clo_class|].
    apply clo_nil; [destruct i; [apply clo_nil; [apply clo_put | apply clo_symbol] | apply clo_put]|].
    apply clo_nil; [apply clo_put|]. apply clo_seq.
    { apply clo_list. intros p. apply (clo_seq _ _ [fst p] [snd p]); apply hd. }
    apply clo_seq; [destruct df; [apply hd | apply clo_put] | now apply clo_ivar_block].
  - apply clo_nil; [apply clo_put|]. apply clo_nil; [apply clo_symbol|]. apply clo_nil; [apply clo_put|]. now apply clo_ivars.
  - apply clo_nil; [apply clo_put|]. apply clo_nil; [apply clo_put|]. apply clo_nil; [apply clo_enc_pair | now apply clo_ivars].
Qed.
Lemma clo_weak w x : clo w x -> clo w [].
Proof. intros c sy ob out sy' ob' e. destruct (c _ _ _ _ _ e) as (a & b & d). split; auto. split; auto. intros v []. Qed.
Lemma clo_imm w v : clo w [] -> ~ isref v -> clo w [v].
Proof.
  intros c n sy ob out sy' ob' e. destruct (c _ _ _ _ _ e) as (a & b & d). split; auto. split; auto.
  intros x [<-|[]]; tauto.
Qed.
Lemma clo_linked_flo b w : clo w [] -> clo (w_linked (VFlo b) w) [].
Proof.
  intros c sy ob out sy' ob' e. unfold w_linked in e. cbn [fst snd] in e. destruct (position _ ob 0).
  - injection e as <- <- <-. split; [apply incl_refl|]. split; [intros v []|]. auto.
  - destruct (c _ _ _ _ _ e) as (x & y & z). split; [intros q hq; apply x, in_or_app; auto|]. split; [auto|].
    intros a ha. destruct (z a ha) as [q|q]; [|now right]. apply in_app_iff in q as [q|[q|[]]]; [auto|discriminate].
Qed.
Lemma clo_linked_ref a o w : nth_error h a = Some o -> clo w (slots o) -> clo (w_linked (VRef a) w) [VRef a].
Proof.
  intros hn c sy ob out sy' ob' e. unfold w_linked in e. cbn [fst snd] in e.
  pose proof (position_id (VRef a) ob) as P. destruct (position _ ob 0).
  - injection e as <- <- <-. split; [apply incl_refl|]. split; [|auto]. intros v [<-|[]] _.
    eapply nth_error_In. apply P.
  - destruct (c _ _ _ _ _ e) as (x & y & t). split; [intros q hq; apply x, in_or_app; auto|].
    split; [intros v [<-|[]] _; apply x, in_or_app; right; now left|].
    intros b hb. destruct (t b hb) as [q|q]; [|now right]. apply in_app_iff in q as [q|[q|[]]]; [auto|].
    injection q as <-. right. unfold kids. rewrite hn. auto.
Qed.
(** No heap Integer is small enough to be written as a 30-bit one. *)
Definition bigs : Prop := forall a n, nth_error h a = Some (OBig n) -> in30 n = false.
Lemma dump_clo : bigs -> forall n, cgood (dumpv n).
Proof.
  intros hb. induction n as [|n IH]; intros v; [intros ? ? ? ? ? ?; discriminate|]. cbn [dump_value].
  destruct v as [|[]|k|b|s|a]; try (apply clo_imm; [apply clo_put | intros []]).
  - apply clo_imm; [|intros []]. destruct (in30 k); apply clo_put.
  - apply clo_imm; [|intros []]. apply clo_linked_flo, clo_put.
  - apply clo_imm; [apply clo_symbol|intros []].
  - destruct (nth_error h a) as [o|] eqn:E; [|intros ? ? ? ? ? ?; discriminate].
    assert (L : clo (w_linked (VRef a) (w_body fmt (dumpv n) o)) [VRef a]) by (eapply clo_linked_ref; [eauto | now apply clo_body]).
    destruct o; try exact L. now rewrite (hb _ _ E).
Qed.

(** * Termination *)
(** [w] succeeds once [k] objects have been entered. *)
Definition tot (k : nat) (w : W) : Prop := forall sy ob, tbl ob -> (k <= length (refs ob))%nat ->
  exists out sy' ob', w (sy, ob) = Some (out, (sy', ob')).
Lemma tot_put k l : tot k (wput l). Proof. intros sy ob _ _. exists l, sy, ob. reflexivity. Qed.
Lemma tot_push k l : tot k (push_sym l). Proof. intros sy ob _ _. do 3 eexists. reflexivity. Qed.
Lemma tot_seq k j a b : tot k a -> tot k b -> slack j a -> tot k (wseq a b).
Proof.
  intros ha hb sa sy ob t hk. destruct (ha sy ob t hk) as (o1 & sy1 & ob1 & e1).
  destruct (sa _ _ _ _ e1) as (n1 & m1 & q & _ & _ & t1). injection q as -> ->.
  destruct (hb (sy ++ n1) (ob ++ m1) (t1 t)) as (o2 & sy2 & ob2 & e2).
  { rewrite refs_app, app_length. lia. }
  exists (o1 ++ o2), sy2, ob2. unfold wseq. now rewrite e1, e2.
Qed.
Lemma tot_symlink k s w : tot k w -> tot k (w_symlink s w).
Proof.
  intros hw sy ob t hk. unfold w_symlink. destruct (position _ _ _); [do 3 eexists; reflexivity | now apply hw].
Qed.
Lemma tot_symbol0 k s : tot k (w_symbol0 s).
Proof. apply tot_symlink. eapply tot_seq; [apply tot_put | apply tot_push | apply slack_put]. Qed.
Lemma tot_enc_pair k e : tot k (w_enc_pair e).
Proof. destruct e; cbn [w_enc_pair]; (eapply tot_seq; [apply tot_symbol0 | apply tot_put | apply slack_symbol0]). Qed.
Lemma tot_symbol k s : tot k (w_symbol s).
Proof.
  unfold w_symbol. destruct (_ || _); [apply tot_symbol0|]. apply tot_symlink.
  eapply tot_seq; [apply tot_put | | apply slack_put]. eapply tot_seq; [apply tot_push | | apply slack_push].
  eapply tot_seq; [apply tot_put | apply tot_enc_pair | apply slack_put].
Qed.
Lemma tot_list {A} k j (d : A -> W) l : (forall x, In x l -> tot k (d x)) -> (forall x, slack j (d x)) -> tot k (w_list d l).
Proof.
  intros hd hs. induction l as [|x l IH]; cbn [w_list]; [apply tot_put|].
  eapply tot_seq; [apply hd; now left | apply IH; intros; apply hd; now right | apply hs].
Qed.
Lemma tot_class k c : tot k (w_class c).
Proof. destruct c; [|apply tot_put]. eapply tot_seq; [apply tot_put | apply tot_symbol | apply slack_put]. Qed.
Lemma tot_ivars k d iv : (forall v, In v (map snd iv) -> tot k (d v)) -> good d -> tot k (w_ivars d iv).
Proof.
  intros hd hg. apply (tot_list k 2).
  - intros p hp. eapply tot_seq; [apply tot_symbol | apply hd; now apply in_map | apply slack_symbol].
  - intros p. apply (slack_seq 1 1); [apply slack_symbol | apply hg].
Qed.
Lemma tot_ivar_block k d iv : (forall v, In v (map snd iv) -> tot k (d v)) -> good d -> tot k (w_ivar_block d iv).
Proof.
  intros hd hg. destruct iv; [apply tot_put|]. eapply tot_seq; [apply tot_put | now apply tot_ivars | apply slack_put].
Qed.
Lemma tot_I k iv : tot k (w_I iv). Proof. destruct iv; apply tot_put. Qed.
Lemma tot_if k (b : bool) x y : tot k x -> tot k y -> tot k (if b then x else y). Proof. destruct b; auto. Qed.
Lemma slack_pairs d l : good d -> slack ((1 + 1) * len l) (w_list (fun p => wseq (d (fst p)) (d (snd p))) l).
Proof. intros hg. apply (slack_list (fun p => wseq (d (fst p)) (d (snd p)))). intros. apply slack_seq; apply hg. Qed.
Lemma tot_body k d o : (forall v, In v (slots o) -> tot k (d v)) -> good d -> tot k (w_body fmt d o).
Proof.
  intros hd hg. destruct o as [n|b|c b e iv|c l iv|c l df i iv|c iv|src opt e iv]; cbn [w_body slots] in *; try apply tot_put.
  - eapply tot_seq; [apply tot_if; apply tot_put | | apply slack_if; apply slack_put0].
    eapply tot_seq; [apply tot_class | | apply slack_class].
    eapply tot_seq; [apply tot_put | | apply slack_put]. apply tot_if; [|apply tot_put].
    eapply tot_seq; [apply tot_put | | apply slack_put].
    eapply (tot_seq k 0); [apply tot_if; [apply tot_enc_pair | apply tot_put] | now apply tot_ivars |].
    apply slack_if; [|apply slack_put0]. eapply slack_le; [|apply slack_enc_pair]; lia.
  - eapply tot_seq; [apply tot_I | | apply slack_I]. eapply tot_seq; [apply tot_class | | apply slack_class].
    eapply tot_seq; [apply tot_put | | apply slack_put].
    eapply tot_seq; [apply (tot_list k 1); [intros; apply hd, in_or_app; auto | apply hg] | | apply (slack_list d 1); intros; apply hg].
    apply tot_ivar_block; auto. intros; apply hd, in_or_app; auto.
  - eapply tot_seq; [apply tot_I | | apply slack_I]. eapply tot_seq; [apply tot_class | | apply slack_class].
    eapply (tot_seq k 0); [apply tot_if; [eapply tot_seq; [apply tot_put | apply tot_symbol | apply slack_put] | apply tot_put] | |
      apply slack_if; [eapply slack_le; [|apply slack_seq; [apply slack_put | apply slack_symbol]]; cbn; lia | apply slack_put0]].
    eapply tot_seq; [apply tot_put | | apply slack_put].
    eapply tot_seq; [apply (tot_list k 2) | | now apply slack_pairs].
    + intros p hp. eapply tot_seq; [| | apply hg]; apply hd, in_or_app; left; apply in_flat_map; exists p; split; auto; cbn; auto.
    + intros p. apply (slack_seq 1 1); apply hg.
    + eapply (tot_seq k 0).
      * destruct df; [|apply tot_put]. apply hd, in_or_app. right. now left.
      * apply tot_ivar_block; auto. intros v hv. apply hd, in_or_app. right. apply in_or_app. auto.
      * destruct df; [|apply slack_put0]. eapply slack_le; [|apply hg]. lia.
  - eapply tot_seq; [apply tot_put | | apply slack_put]. eapply tot_seq; [apply tot_symbol | | apply slack_symbol].
    eapply tot_seq; [apply tot_put | | apply slack_put]. now apply tot_ivars.
  - eapply tot_seq; [apply tot_put | | apply slack_put]. eapply tot_seq; [apply tot_put | | apply slack_put].
    eapply tot_seq; [apply tot_enc_pair | now apply tot_ivars | apply slack_enc_pair].
Qed.
(** References lead somewhere. *)
Definition inside (v : val) : Prop := match v with VRef a => (a < length h)%nat | _ => True end.
Definition closed : Prop := forall a v, In v (kids a) -> inside v.
Lemma dump_total n : forall k v, closed -> inside v -> (length h < k + n)%nat -> tot k (dumpv n v).
Proof.
  induction n as [|n IH]; intros k v hc hv hn.
  { intros sy ob t hk. pose proof (refs_bound ob t). lia. }
  cbn [dump_value]. destruct v as [|[]|m|b|s|a]; try apply tot_put.
  - apply tot_if; apply tot_put.
  - intros sy ob t hk. unfold w_linked. cbn [fst snd]. destruct (position _ ob 0); do 3 eexists; reflexivity.
  - apply tot_symbol.
  - cbn in hv. destruct (nth_error h a) as [o|] eqn:E; [|apply nth_error_None in E; lia].
    assert (L : tot k (w_linked (VRef a) (w_body fmt (dumpv n) o))).
    { intros sy ob t hk. unfold w_linked. cbn [fst snd]. pose proof (position_id (VRef a) ob) as P.
      destruct (position _ ob 0); [do 3 eexists; reflexivity|].
      apply (tot_body (S k)).
      - intros v hv'. apply IH; auto; [|lia]. apply (hc a). unfold kids. now rewrite E.
      - apply dump_slack.
      - apply tbl_snoc; auto.
      - rewrite refs_app, app_length. cbn [refs length]. lia. }
    destruct o; try exact L. destruct (in30 n0); [apply tot_put | exact L].
Qed.
End Writer.
