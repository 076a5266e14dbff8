(** The native parser always answers, refuses truncated texts, and accepts only JSON
    on texts without backslashes. *)
From Coq Require Import ZArith List Bool Lia.
From Verif Require Import IstrModel Utf8Model Utf8Spec Utf8Proofs JsonModel JsonSpec JsonProofs.
Import ListNotations.
Open Scope Z_scope.

(** * Lengths *)
Lemma hex4_len s v r : hex4 s = Some (v, r) -> exists a b c d, s = [a; b; c; d] ++ r.
Proof.
  unfold hex4. destruct s as [|a [|b [|c [|d q]]]]; try discriminate.
  destruct (if a =? 43 then hexs [b; c; d] 0 else hexs [a; b; c; d] 0); cbn; [|discriminate].
  intro h. injection h as <- <-. exists a, b, c, d. reflexivity.
Qed.
Lemma hex4_more s v r x : hex4 s = Some (v, r) -> hex4 (s ++ x) = Some (v, r ++ x).
Proof.
  intro h. destruct (hex4_len s v r h) as (a & b & c & d & ->). cbn [app hex4] in *.
  destruct (if a =? 43 then hexs [b; c; d] 0 else hexs [a; b; c; d] 0); cbn in *; [|discriminate]. congruence.
Qed.
Lemma unescape_u_len s p r : unescape_u s = Some (p, r) -> exists q, s = q ++ r.
Proof.
  unfold unescape_u. destruct (hex4 s) as [[cp q]|] eqn:h; [|discriminate].
  destruct (hex4_len s cp q h) as (a & b & c & d & ->).
  destruct ((55296 <=? cp) && (cp <=? 56319)).
  2:{ destruct (push_char cp); cbn; [|discriminate]. intro e. injection e as <- <-. exists [a; b; c; d]. reflexivity. }
  assert (D : (exists q1, q = 92 :: 117 :: q1) \/ match q with 92 :: 117 :: r1 =>
      match hex4 r1 with None => None | Some (low, r2) => if (56320 <=? low) && (low <=? 57343) then
        option_map (fun p => (p, r2)) (push_char (65536 + Z.shiftl (cp - 55296) 10 + (low - 56320))) else Some (fffd, r2) end
      | _ => Some (fffd, q) end = Some (fffd, q)).
  { destruct q as [|x [|y q]]; auto; destruct x as [|x|x]; auto;
      repeat (destruct x as [x|x|]; auto); destruct y as [|y|y]; auto; repeat (destruct y as [y|y|]; auto).
    left. eauto. }
  destruct D as [(q1 & ->)|e]; [|rewrite e; intro i; injection i as <- <-; exists [a; b; c; d]; reflexivity].
  destruct (hex4 q1) as [[low q2]|] eqn:h2; [|discriminate].
  destruct (hex4_len q1 low q2 h2) as (a2 & b2 & c2 & d2 & ->).
  assert (G : forall z, exists q0, [a; b; c; d] ++ 92 :: 117 :: [a2; b2; c2; d2] ++ z = q0 ++ z).
  { intro z. exists [a; b; c; d; 92; 117; a2; b2; c2; d2]. reflexivity. }
  destruct ((56320 <=? low) && (low <=? 57343)).
  - destruct (push_char _); cbn [option_map]; [|discriminate]. intro e. injection e as <- <-. apply G.
  - intro e. injection e as <- <-. apply G.
Qed.
Lemma unescape_len e s p r : unescape e s = Some (p, r) -> exists q, s = q ++ r.
Proof.
  unfold unescape.
  repeat match goal with |- context [if ?b then _ else _] => destruct b end;
    try (intro h; injection h as <- <-; exists []; reflexivity).
  apply unescape_u_len.
Qed.
Lemma step_pos b : (1 <= snd (utf8_step b))%nat.
Proof.
  unfold utf8_step. destruct b as [|b0 r]; cbn; auto.
  repeat match goal with
  | |- context [if ?c then _ else _] => destruct c
  | |- context [match ?l with [] => _ | _ :: _ => _ end] => destruct l
  end; cbn; lia.
Qed.

Lemma pstr_rest : forall f s acc b r, pstr f s acc = POk b r -> exists q, s = q ++ 34 :: r.
Proof.
  induction f as [|f IH]; intros s acc b r; cbn [pstr]; [discriminate|].
  destruct s as [|c s]; [discriminate|]. destruct (Z.eqb_spec c 34) as [->|n1].
  - intro h. injection h as <- <-. exists []. reflexivity.
  - destruct (Z.eqb_spec c 92) as [->|n2].
    + destruct s as [|e s]; [discriminate|]. destruct (unescape e s) as [[p r2]|] eqn:h; [|discriminate].
      intro h2. destruct (unescape_len e s p r2 h) as (q & ->). destruct (IH _ _ _ _ h2) as (q2 & ->).
      exists (92 :: e :: q ++ q2). cbn. rewrite <- app_assoc. reflexivity.
    + destruct (128 <=? c).
      * destruct (utf8_step (c :: s)) as [[|] n].
        -- intro h. destruct (IH _ _ _ _ h) as (q & E). exists (firstn n (c :: s) ++ q).
           rewrite <- app_assoc, <- E. symmetry. apply firstn_skipn.
        -- intro h. destruct (IH _ _ _ _ h) as (q & ->). exists (c :: q). reflexivity.
      * intro h. destruct (IH _ _ _ _ h) as (q & ->). exists (c :: q). reflexivity.
Qed.
Lemma pstring_rest s b r : pstring s = POk b r -> exists q, s = q ++ 34 :: r.
Proof. apply pstr_rest. Qed.
Lemma pstr_total : forall f s acc, (length s < f)%nat -> pstr f s acc <> PFuel.
Proof.
  induction f as [|f IH]; intros s acc hf; [lia|]. cbn [pstr].
  destruct s as [|c s]; [discriminate|]. cbn [length] in hf. destruct (c =? 34); [discriminate|].
  destruct (c =? 92).
  - destruct s as [|e s]; [discriminate|]. destruct (unescape e s) as [[p r2]|] eqn:h; [|discriminate].
    destruct (unescape_len e s p r2 h) as (q & ->). apply IH. cbn [length] in hf. rewrite app_length in hf. lia.
  - destruct (128 <=? c); [|apply IH; lia]. pose proof (step_pos (c :: s)) as hp.
    destruct (utf8_step (c :: s)) as [[|] n]; cbn [snd] in hp; apply IH; [|lia].
    destruct n as [|n]; [lia|]. cbn [skipn]. rewrite skipn_length. lia.
Qed.
Lemma pstring_total s : pstring s <> PFuel.
Proof. apply pstr_total. lia. Qed.

Lemma span_app p s : s = fst (span p s) ++ snd (span p s).
Proof. induction s as [|c s IH]; cbn; auto. destruct (p c); cbn; congruence. Qed.
Lemma span_all p s : Forall (fun c => p c = true) (fst (span p s)).
Proof. induction s as [|c s IH]; cbn; auto. destruct (p c) eqn:h; cbn; auto. Qed.
Lemma p_int_rest s i r : p_int s = Some (i, r) -> s = i ++ r /\ jint i.
Proof.
  unfold p_int. destruct s as [|c s]; [discriminate|]. destruct (Z.eqb_spec c 48) as [->|n].
  - intro h. injection h as <- <-. split; [reflexivity|left; reflexivity].
  - destruct ((49 <=? c) && (c <=? 57)) eqn:b; [|discriminate]. intro h. injection h as <- <-.
    apply andb_true_iff in b. rewrite !Z.leb_le in b. split; [cbn; f_equal; apply span_app|].
    right. split; [|exact n]. split; [discriminate|]. constructor; [lia|].
    eapply Forall_impl; [|apply span_all]. intros x hx. apply isdig_iff, hx.
Qed.
Lemma p_frac_rest s f r : p_frac s = Some (f, r) -> s = f ++ r /\ (f = [] \/ jfrac f).
Proof.
  unfold p_frac. destruct s as [|c s]; [intro h; injection h as <- <-; auto|].
  destruct (Z.eqb_spec c 46) as [->|n]; [|intro h; injection h as <- <-; auto].
  destruct (span isdig s) as [d q] eqn:e. pose proof (span_app isdig s) as A. pose proof (span_all isdig s) as B.
  rewrite e in A, B. cbn [fst snd] in A, B. destruct d as [|x d]; [discriminate|]. intro h. injection h as <- <-.
  split; [cbn; f_equal; exact A|]. right. exists (x :: d). split; [reflexivity|]. split; [discriminate|].
  eapply Forall_impl; [|exact B]. intros y hy. apply isdig_iff, hy.
Qed.
Lemma p_exp_rest s f r : p_exp s = Some (f, r) -> s = f ++ r /\ (f = [] \/ jexp f).
Proof.
  unfold p_exp. destruct s as [|c s]; [intro h; injection h as <- <-; auto|].
  destruct ((c =? 101) || (c =? 69)) eqn:ec; [|intro h; injection h as <- <-; auto].
  apply orb_true_iff in ec. rewrite !Z.eqb_eq in ec.
  set (sg := match s with g :: r0 => if (g =? 43) || (g =? 45) then ([g], r0) else ([], s) | [] => ([], s) end).
  assert (S : s = fst sg ++ snd sg /\ (fst sg = [] \/ fst sg = [43] \/ fst sg = [45])).
  { subst sg. destruct s as [|g s]; cbn; auto. destruct ((g =? 43) || (g =? 45)) eqn:eg; cbn; auto.
    apply orb_true_iff in eg. rewrite !Z.eqb_eq in eg. destruct eg as [-> | ->]; auto. }
  destruct sg as [g r1]. cbn [fst snd] in S. destruct S as (-> & hg).
  destruct (span isdig r1) as [d q] eqn:e. pose proof (span_app isdig r1) as A. pose proof (span_all isdig r1) as B.
  rewrite e in A, B. cbn [fst snd] in A, B. destruct d as [|x d]; [discriminate|]. intro h. injection h as <- <-.
  split; [cbn [app]; f_equal; rewrite <- app_assoc; f_equal; exact A|]. right. exists c, g, (x :: d).
  split; [reflexivity|]. split; [exact ec|]. split; [exact hg|]. split; [discriminate|].
  eapply Forall_impl; [|exact B]. intros y hy. apply isdig_iff, hy.
Qed.
Lemma strip_eq t : forall s r, strip t s = Some r -> s = t ++ r.
Proof.
  induction t as [|c t IH]; intros s r; cbn; [intro h; injection h as <-; reflexivity|].
  destruct s as [|y s]; [discriminate|]. destruct (Z.eqb_spec c y) as [->|]; [|discriminate].
  intro h. rewrite (IH s r h). reflexivity.
Qed.

Section Total.
Variable rd : list Z -> option Z.
Definition number (v : jv) : Prop := match v with JInt _ | JFlo _ => True | _ => False end.

(** A number that was read, and where it stops. *)
Lemma pnum_inv s v r : pnum rd s = POk v r ->
  exists t, s = t ++ r /\ number v /\ (0 < length t)%nat /\ (exists v', jvalue rd any_int t v').
Proof.
  unfold pnum.
  set (sg := match s with c :: r0 => if c =? 45 then ([45], r0) else ([], s) | [] => ([], s) end).
  assert (S : s = fst sg ++ snd sg /\ minus (fst sg)).
  { subst sg. unfold minus. destruct s as [|g s]; cbn; auto. destruct (Z.eqb_spec g 45) as [->|]; cbn; auto. }
  destruct sg as [g s0]. cbn [fst snd] in S. destruct S as (-> & hg).
  destruct (p_int s0) as [[i s1]|] eqn:e1; [|discriminate]. destruct (p_int_rest _ _ _ e1) as (-> & hi).
  destruct (p_frac s1) as [[fr s2]|] eqn:e2; [|discriminate]. destruct (p_frac_rest _ _ _ e2) as (-> & hf).
  destruct (p_exp s2) as [[ex s3]|] eqn:e3; [|discriminate]. destruct (p_exp_rest _ _ _ e3) as (-> & he).
  assert (L : (0 < length (g ++ i ++ fr ++ ex))%nat).
  { destruct (jint_head i hi) as (c & q & -> & _). rewrite !app_length. cbn. lia. }
  intro h. exists (g ++ i ++ fr ++ ex).
  assert (A : g ++ i ++ fr ++ ex ++ s3 = (g ++ i ++ fr ++ ex) ++ s3) by (rewrite <- !app_assoc; reflexivity).
  destruct (fr ++ ex) as [|x y] eqn:e.
  - assert (fr = [] /\ ex = []) as (-> & ->) by (destruct fr; [split; auto|discriminate]).
    assert (J : exists v', jvalue rd any_int (g ++ i ++ []) v').
    { rewrite app_nil_r. destruct hg as [-> | ->].
      - exists (JInt (decimal 0 i)). apply VInt; [constructor; auto|exact I].
      - exists (JInt (- decimal 0 i)). apply VInt; [constructor; auto|exact I]. }
    cbn [app] in *. rewrite app_nil_r in *.
    destruct (is_i64 _).
    + injection h as <- <-. repeat split; auto.
    + destruct (rd (g ++ i)) eqn:er; [|discriminate]. injection h as <- <-. repeat split; auto.
  - destruct (rd (g ++ i ++ x :: y)) eqn:er; [|discriminate]. injection h as <- <-.
    rewrite A. repeat split; auto. exists (JFlo z). apply VFlo; [|exact er].
    exists g, i, fr, ex. rewrite e. repeat split; auto. discriminate.
Qed.
Lemma pnum_total s : pnum rd s <> PFuel.
Proof.
  unfold pnum. destruct (match s with c :: r => if c =? 45 then ([45], r) else ([], s) | [] => ([], s) end) as [g s0].
  destruct (p_int s0) as [[i s1]|]; [|discriminate]. destruct (p_frac s1) as [[fr s2]|]; [|discriminate].
  destruct (p_exp s2) as [[ex s3]|]; [|discriminate].
  destruct (fr ++ ex); [destruct (is_i64 _); [discriminate|]|]; destruct (rd _); discriminate.
Qed.
Lemma plit_inv t v0 s v r : plit t v0 s = POk v r -> s = t ++ r /\ v = v0.
Proof.
  unfold plit. destruct (strip t s) eqn:e; [|discriminate]. intro h. injection h as <- <-.
  split; [apply strip_eq, e|reflexivity].
Qed.

(** Looking at the next byte. *)
Lemma pval_step f s : pval rd (S f) s =
  match skip_ws s with
  | [] => PErr
  | c :: r =>
      if c =? 34 then match pstring r with POk b r1 => POk (JStr b) r1 | PErr => PErr | PFuel => PFuel end
      else if c =? 123 then
        match skip_ws r with c1 :: r1 => if c1 =? 125 then POk (JObj []) r1 else pobj rd f (skip_ws r) [] | [] => pobj rd f (skip_ws r) [] end
      else if c =? 91 then
        match skip_ws r with c1 :: r1 => if c1 =? 93 then POk (JArr []) r1 else parr rd f (skip_ws r) [] | [] => parr rd f (skip_ws r) [] end
      else if c =? 116 then plit t_true JTrue (c :: r)
      else if c =? 102 then plit t_false JFalse (c :: r)
      else if c =? 110 then plit t_null JNull (c :: r)
      else if (c =? 45) || isdig c then pnum rd (c :: r)
      else PErr
  end.
Proof.
  rewrite pval_S. destruct (skip_ws s) as [|c r]; [reflexivity|].
  destruct (c =? 34); [reflexivity|]. destruct (c =? 123).
  { destruct (skip_ws r) as [|c1 r1]; [reflexivity|]. destruct c1 as [|p|p]; try reflexivity.
    repeat (destruct p as [p|p|]; try reflexivity). }
  destruct (c =? 91); [|reflexivity].
  destruct (skip_ws r) as [|c1 r1]; [reflexivity|]. destruct c1 as [|p|p]; try reflexivity.
  repeat (destruct p as [p|p|]; try reflexivity).
Qed.
Lemma parr_step f s acc : parr rd (S f) s acc =
  match pval rd f s with
  | POk v r => match skip_ws r with
               | c :: r1 => if c =? 44 then parr rd f r1 (acc ++ [v])
                            else if c =? 93 then POk (JArr (acc ++ [v])) r1 else PErr
               | [] => PErr
               end
  | PErr => PErr
  | PFuel => PFuel
  end.
Proof.
  rewrite parr_S. destruct (pval rd f s) as [v r| |]; try reflexivity.
  destruct (skip_ws r) as [|c1 r1]; [reflexivity|]. destruct c1 as [|p|p]; try reflexivity.
  repeat (destruct p as [p|p|]; try reflexivity).
Qed.
Lemma pobj_step f s acc : pobj rd (S f) s acc =
  match skip_ws s with
  | c :: r => if c =? 34 then
      match pstring r with
      | POk k r1 =>
          match skip_ws r1 with
          | c1 :: r2 => if c1 =? 58 then
              match pval rd f r2 with
              | POk v r3 => match skip_ws r3 with
                            | c2 :: r4 => if c2 =? 44 then pobj rd f r4 (hput k v acc)
                                          else if c2 =? 125 then POk (JObj (hput k v acc)) r4 else PErr
                            | [] => PErr
                            end
              | PErr => PErr
              | PFuel => PFuel
              end else PErr
          | [] => PErr
          end
      | PErr => PErr
      | PFuel => PFuel
      end else PErr
  | [] => PErr
  end.
Proof.
  rewrite pobj_S. destruct (skip_ws s) as [|c r]; [reflexivity|].
  destruct (Z.eqb_spec c 34) as [->|n].
  2:{ destruct c as [|p|p]; try reflexivity. repeat (destruct p as [p|p|]; try reflexivity). contradiction. }
  destruct (pstring r) as [k r1| |]; try reflexivity. destruct (skip_ws r1) as [|c1 r2]; [reflexivity|].
  destruct (Z.eqb_spec c1 58) as [->|n].
  2:{ destruct c1 as [|p|p]; try reflexivity. repeat (destruct p as [p|p|]; try reflexivity). contradiction. }
  destruct (pval rd f r2) as [v r3| |]; try reflexivity. destruct (skip_ws r3) as [|c2 r4]; [reflexivity|].
  destruct c2 as [|p|p]; try reflexivity. repeat (destruct p as [p|p|]; try reflexivity).
Qed.
Lemma skip_split s : exists w, blank w /\ s = w ++ skip_ws s.
Proof.
  induction s as [|c s (w & hw & e)]; cbn; [exists []; split; [constructor|reflexivity]|].
  destruct (is_space c) eqn:h; [|exists []; split; [constructor|reflexivity]].
  exists (c :: w). split; [constructor; [apply space_iff, h|exact hw]|]. cbn. congruence.
Qed.
(** What skip_ws leaves starts with no blank. *)
Lemma skip_head s c r : skip_ws s = c :: r -> is_space c = false.
Proof.
  induction s as [|x s IH]; cbn; [discriminate|]. destruct (is_space x) eqn:h; [exact IH|].
  intro e. injection e as <- <-. exact h.
Qed.

(** The three functions in inverted form: one lemma each, used by all that follows. *)
Lemma pval_inv f s v r : pval rd (S f) s = POk v r ->
  exists w c q, blank w /\ s = w ++ c :: q /\ is_space c = false /\
  ((c = 34 /\ exists b, pstring q = POk b r /\ v = JStr b) \/
   (c = 123 /\ ((exists w2, blank w2 /\ q = w2 ++ 125 :: r /\ v = JObj []) \/ pobj rd f (skip_ws q) [] = POk v r)) \/
   (c = 91 /\ ((exists w2, blank w2 /\ q = w2 ++ 93 :: r /\ v = JArr []) \/ parr rd f (skip_ws q) [] = POk v r)) \/
   (c = 116 /\ c :: q = t_true ++ r /\ v = JTrue) \/ (c = 102 /\ c :: q = t_false ++ r /\ v = JFalse) \/
   (c = 110 /\ c :: q = t_null ++ r /\ v = JNull) \/ ((c = 45 \/ 48 <= c <= 57) /\ pnum rd (c :: q) = POk v r)).
Proof.
  rewrite pval_step. destruct (skip_split s) as (w & hw & e). remember (skip_ws s) as z eqn:ez.
  destruct z as [|c q]; [discriminate|]. pose proof (skip_head s c q (eq_sym ez)) as hc.
  intro h. exists w, c, q. split; [exact hw|]. split; [exact e|]. split; [exact hc|].
  destruct (Z.eqb_spec c 34) as [->|n1].
  { left. split; auto. destruct (pstring q) as [b r1| |]; try discriminate. injection h as <- <-. eauto. }
  right. destruct (Z.eqb_spec c 123) as [->|n2].
  { left. split; auto. destruct (skip_split q) as (w2 & hw2 & e2). remember (skip_ws q) as z2 eqn:ez2.
    destruct z2 as [|c2 q2]; [auto|]. destruct (Z.eqb_spec c2 125) as [->|]; [|auto].
    left. injection h as <- <-. eauto. }
  right. destruct (Z.eqb_spec c 91) as [->|n3].
  { left. split; auto. destruct (skip_split q) as (w2 & hw2 & e2). remember (skip_ws q) as z2 eqn:ez2.
    destruct z2 as [|c2 q2]; [auto|]. destruct (Z.eqb_spec c2 93) as [->|]; [|auto].
    left. injection h as <- <-. eauto. }
  right. destruct (Z.eqb_spec c 116) as [->|n4]; [left; split; auto; apply plit_inv; auto|].
  right. destruct (Z.eqb_spec c 102) as [->|n5]; [left; split; auto; apply plit_inv; auto|].
  right. destruct (Z.eqb_spec c 110) as [->|n6]; [left; split; auto; apply plit_inv; auto|].
  right. destruct ((c =? 45) || isdig c) eqn:b; [|discriminate]. split; [|exact h].
  apply orb_true_iff in b. rewrite Z.eqb_eq, isdig_iff in b. exact b.
Qed.
Lemma parr_inv f s acc v r : parr rd (S f) s acc = POk v r ->
  exists x r1 w, pval rd f s = POk x r1 /\ blank w /\
  ((exists r2, r1 = w ++ 44 :: r2 /\ parr rd f r2 (acc ++ [x]) = POk v r) \/ (r1 = w ++ 93 :: r /\ v = JArr (acc ++ [x]))).
Proof.
  rewrite parr_step. destruct (pval rd f s) as [x r1| |]; try discriminate. 
  destruct (skip_split r1) as (w & hw & e). destruct (skip_ws r1) as [|c q]; [discriminate|].
  intro h. exists x, r1, w. split; auto. split; auto. destruct (Z.eqb_spec c 44) as [->|]; [eauto|].
  destruct (Z.eqb_spec c 93) as [->|]; [|discriminate]. injection h as <- <-. auto.
Qed.
Lemma pobj_inv f s acc v r : pobj rd (S f) s acc = POk v r ->
  exists w1 r1 k r2 w2 r3 x r4 w3, blank w1 /\ s = w1 ++ 34 :: r1 /\ pstring r1 = POk k r2 /\
  blank w2 /\ r2 = w2 ++ 58 :: r3 /\ pval rd f r3 = POk x r4 /\ blank w3 /\
  ((exists r5, r4 = w3 ++ 44 :: r5 /\ pobj rd f r5 (hput k x acc) = POk v r) \/
   (r4 = w3 ++ 125 :: r /\ v = JObj (hput k x acc))).
Proof.
  rewrite pobj_step. destruct (skip_split s) as (w1 & hw1 & e1). destruct (skip_ws s) as [|c r1]; [discriminate|].
  destruct (Z.eqb_spec c 34) as [->|]; [|discriminate].
  destruct (pstring r1) as [k r2| |] eqn:e2; try discriminate. 
  destruct (skip_split r2) as (w2 & hw2 & e3). destruct (skip_ws r2) as [|c r3]; [discriminate|].
  destruct (Z.eqb_spec c 58) as [->|]; [|discriminate].
  destruct (pval rd f r3) as [x r4| |] eqn:e4; try discriminate. 
  destruct (skip_split r4) as (w3 & hw3 & e5). destruct (skip_ws r4) as [|c q]; [discriminate|].
  intro h. exists w1, r1, k, r2, w2, r3, x, r4, w3. repeat (split; [assumption|]).
  destruct (Z.eqb_spec c 44) as [->|]; [eauto|].
  destruct (Z.eqb_spec c 125) as [->|]; [|discriminate]. injection h as <- <-. auto.
Qed.

(** * The cursor moves forward *)
Lemma parse_len : forall f,
  (forall s v r, pval rd f s = POk v r -> (length r < length s)%nat) /\
  (forall s acc v r, parr rd f s acc = POk v r -> (length r < length s)%nat) /\
  (forall s acc v r, pobj rd f s acc = POk v r -> (length r < length s)%nat).
Proof.
  induction f as [|f (IV & IA & IO)]; [repeat split; intros; discriminate|]. split; [|split].
  - intros s v r h. destruct (pval_inv f s v r h) as (w & c & q & hw & -> & hc & H). rewrite app_length. cbn [length].
    destruct H as [(-> & b & hb & _)|[(-> & [(w2 & _ & -> & _)|h2])|[(-> & [(w2 & _ & -> & _)|h2])|[(_ & E & _)|[(_ & E & _)|[(_ & E & _)|(_ & hn)]]]]]].
    + destruct (pstring_rest _ _ _ hb) as (x & ->). rewrite app_length. cbn. lia.
    + rewrite app_length. cbn. lia.
    + pose proof (IO _ _ _ _ h2). pose proof (skip_len q). lia.
    + rewrite app_length. cbn. lia.
    + pose proof (IA _ _ _ _ h2). pose proof (skip_len q). lia.
    + apply (f_equal (@length Z)) in E. rewrite app_length in E. cbn in E. lia.
    + apply (f_equal (@length Z)) in E. rewrite app_length in E. cbn in E. lia.
    + apply (f_equal (@length Z)) in E. rewrite app_length in E. cbn in E. lia.
    + destruct (pnum_inv _ _ _ hn) as (t & E & _ & hl & _). apply (f_equal (@length Z)) in E. rewrite app_length in E. cbn in E. lia.
  - intros s acc v r h. destruct (parr_inv f s acc v r h) as (x & r1 & w & hv & hw & [(r2 & -> & h2)|(-> & _)]);
      pose proof (IV _ _ _ hv) as L; rewrite app_length in L; cbn in L; [|lia].
    pose proof (IA _ _ _ _ h2). lia.
  - intros s acc v r h. destruct (pobj_inv f s acc v r h) as (w1 & r1 & k & r2 & w2 & r3 & x & r4 & w3 & _ & -> & hk & _ & -> & hv & _ & H).
    destruct (pstring_rest _ _ _ hk) as (y & ->). pose proof (IV _ _ _ hv) as L.
    repeat (rewrite !app_length; cbn [length]).
    destruct H as [(r5 & -> & h2)|(-> & _)]; rewrite app_length in L; cbn in L; [pose proof (IO _ _ _ _ h2)|]; lia.
Qed.

(** The fuel of [json_parse] is enough. *)
Lemma parse_total : forall f,
  (forall s, (2 * length s < f)%nat -> pval rd f s <> PFuel) /\
  (forall s acc, (2 * length s + 1 < f)%nat -> parr rd f s acc <> PFuel) /\
  (forall s acc, (2 * length s + 1 < f)%nat -> pobj rd f s acc <> PFuel).
Proof.
  induction f as [|f (IV & IA & IO)]; [repeat split; intros; lia|]. split; [|split].
  - intros s hf. rewrite pval_step. pose proof (skip_len s) as L. destruct (skip_ws s) as [|c q]; [discriminate|]. cbn [length] in L.
    destruct (c =? 34). { pose proof (pstring_total q). destruct (pstring q); congruence. }
    pose proof (skip_len q) as L2.
    destruct (c =? 123). { destruct (skip_ws q) as [|c2 q2] eqn:e; [apply IO; cbn in *; lia|]. destruct (c2 =? 125); [discriminate|]. apply IO. lia. }
    destruct (c =? 91). { destruct (skip_ws q) as [|c2 q2] eqn:e; [apply IA; cbn in *; lia|]. destruct (c2 =? 93); [discriminate|]. apply IA. lia. }
    destruct (c =? 116). { unfold plit. destruct (strip _ _); discriminate. }
    destruct (c =? 102). { unfold plit. destruct (strip _ _); discriminate. }
    destruct (c =? 110). { unfold plit. destruct (strip _ _); discriminate. }
    destruct ((c =? 45) || isdig c); [apply pnum_total|discriminate].
  - intros s acc hf. rewrite parr_step. pose proof (IV s ltac:(lia)) as T. destruct (pval rd f s) as [x r1| |] eqn:e; try congruence.
    destruct (parse_len f) as (PL & _ & _). apply PL in e. pose proof (skip_len r1) as L. 
    destruct (skip_ws r1) as [|c q]; [discriminate|]. cbn [length] in L. destruct (c =? 44); [apply IA; lia|]. destruct (c =? 93); discriminate.
  - intros s acc hf. rewrite pobj_step. pose proof (skip_len s) as L. destruct (skip_ws s) as [|c q]; [discriminate|]. cbn [length] in L.
    destruct (c =? 34); [|discriminate]. pose proof (pstring_total q). destruct (pstring q) as [k r1| |] eqn:e; try congruence.
    destruct (pstring_rest _ _ _ e) as (y & ->). rewrite app_length in L. cbn [length] in L. 
    pose proof (skip_len r1) as L1. destruct (skip_ws r1) as [|c1 r2]; [discriminate|]. cbn [length] in L1.
    destruct (c1 =? 58); [|discriminate]. pose proof (IV r2 ltac:(lia)) as T. destruct (pval rd f r2) as [x r3| |] eqn:e2; try congruence.
    destruct (parse_len f) as (PL & _ & _). apply PL in e2. pose proof (skip_len r3) as L2. 
    destruct (skip_ws r3) as [|c3 q3]; [discriminate|]. cbn [length] in L2. destruct (c3 =? 44); [apply IO; lia|]. destruct (c3 =? 125); discriminate.
Qed.
Theorem json_parse_total s : json_parse rd s <> PFuel.
Proof. apply (proj1 (parse_total _)). lia. Qed.

(** * More text behind does not change what was read *)
Definition quoted (s : list Z) : Prop := exists q r, s = q ++ 34 :: r.
Lemma quoted_cons c s : c <> 34 -> quoted (c :: s) -> quoted s.
Proof. intros n ([|y q] & r & e); injection e as -> E; [contradiction|]. exists q, r. exact E. Qed.
Lemma pair_open (A : Type) s (f : list Z -> A) (d : A) :
  match s with 92 :: 117 :: r1 => f r1 | _ => d end =
  match s with a :: b :: r => if (a =? 92) && (b =? 117) then f r else d | _ => d end.
Proof.
  destruct s as [|a [|b r]]; auto; destruct a as [|p|p]; auto; repeat (destruct p as [p|p|]; auto);
    destruct b as [|p|p]; auto; repeat (destruct p as [p|p|]; auto).
Qed.
Lemma unescape_u_more s p r x : unescape_u s = Some (p, r) -> quoted r -> unescape_u (s ++ x) = Some (p, r ++ x).
Proof.
  unfold unescape_u. destruct (hex4 s) as [[cp q]|] eqn:h; [|discriminate]. rewrite (hex4_more _ _ _ x h).
  destruct ((55296 <=? cp) && (cp <=? 56319)).
  2:{ destruct (push_char cp); cbn; [|discriminate]. intro e. injection e as <- <-. reflexivity. }
  rewrite !pair_open. intros e hq. destruct q as [|a [|b q]].
  - injection e as <- <-. destruct hq as ([|? ?] & ? & E); discriminate.
  - injection e as <- <-. destruct hq as ([|? [|? ?]] & ? & E); try discriminate. injection E as -> _. cbn [app].
    destruct x; reflexivity.
  - cbn [app]. destruct ((a =? 92) && (b =? 117)); [|injection e as <- <-; reflexivity].
    destruct (hex4 q) as [[low q2]|] eqn:h2; [|discriminate]. rewrite (hex4_more _ _ _ x h2).
    destruct ((56320 <=? low) && (low <=? 57343)); [|injection e as <- <-; reflexivity].
    destruct (push_char _); cbn [option_map] in *; [|discriminate]. injection e as <- <-. reflexivity.
Qed.
Lemma unescape_more e s p r x : unescape e s = Some (p, r) -> quoted r -> unescape e (s ++ x) = Some (p, r ++ x).
Proof.
  unfold unescape.
  repeat match goal with |- context [if ?b then _ else _] => destruct b end;
    try (intros h _; injection h as <- <-; reflexivity).
  apply unescape_u_more.
Qed.
Lemma step_more s n x : utf8_step s = (true, n) -> utf8_step (s ++ x) = (true, n) /\ (n <= length s)%nat.
Proof.
  unfold utf8_step. destruct s as [|b0 [|b1 [|b2 [|b3 s]]]]; cbn [app];
  repeat match goal with
  | |- context [if ?c then _ else _] => destruct c
  end; try discriminate; intro h; injection h as <-; cbn [length]; split; auto; lia.
Qed.
Lemma step_less c q r x n : utf8_step (c :: q ++ 34 :: r) = (false, n) -> fst (utf8_step ((c :: q ++ 34 :: r) ++ x)) = false.
Proof.
  intro h. destruct (utf8_step ((c :: q ++ 34 :: r) ++ x)) as [[|] m] eqn:e; [exfalso|reflexivity].
  revert h e. unfold utf8_step, second3, second4, cont, between.
  destruct q as [|b1 [|b2 [|b3 q]]]; cbn [app];
  repeat match goal with
  | |- context [if ?c then _ else _] => let E := fresh in destruct c eqn:E; cbn in E
  end; intros; try discriminate;
  repeat match goal with H : (if ?b then _ else _) = true |- _ => destruct b; try discriminate end.
Qed.
Lemma pstr_more : forall f s acc b r, pstr f s acc = POk b r ->
  forall f' x, (f <= f')%nat -> pstr f' (s ++ x) acc = POk b (r ++ x).
Proof.
  induction f as [|f IH]; intros s acc b r; [discriminate|].
  intros h f' x hf. destruct f' as [|f']; [lia|]. cbn [pstr] in *.
  destruct s as [|c s]; [discriminate|]. cbn [app]. destruct (c =? 34) eqn:c34; [injection h as <- <-; reflexivity|].
  destruct (c =? 92).
  - destruct s as [|e s]; [discriminate|]. cbn [app]. destruct (unescape e s) as [[p r2]|] eqn:h2; [|discriminate].
    rewrite (unescape_more _ _ _ _ x h2) by (destruct (pstr_rest _ _ _ _ _ h) as (q & E); exists q, r; exact E).
    apply IH; [exact h|lia].
  - destruct (128 <=? c); [|apply IH; [exact h|lia]].
    change (c :: s ++ x) with ((c :: s) ++ x).
    destruct (utf8_step (c :: s)) as [[|] n] eqn:e.
    + destruct (step_more _ _ x e) as (-> & L). rewrite skipn_app, firstn_app.
      replace (n - length (c :: s))%nat with O by lia. cbn [skipn firstn]. rewrite app_nil_r. apply IH; [exact h|lia].
    + destruct (pstr_rest _ _ _ _ _ h) as (q & E). subst s. apply (step_less c q r x) in e.
      destruct (utf8_step ((c :: q ++ 34 :: r) ++ x)) as [[|] m]; [discriminate|]. apply IH; [exact h|lia].
Qed.
Lemma pstring_more s b r x : pstring s = POk b r -> pstring (s ++ x) = POk b (r ++ x).
Proof. intro h. unfold pstring. eapply pstr_more; [exact h|]. rewrite app_length. lia. Qed.

Lemma skip_more w c q : blank w -> is_space c = false -> skip_ws (w ++ c :: q) = c :: q.
Proof. intros. apply skip_to; auto. Qed.
(** A number may go on, nothing else. *)
Lemma span_more p s x : snd (span p s) <> [] -> span p (s ++ x) = (fst (span p s), snd (span p s) ++ x).
Proof.
  induction s as [|c s IH]; cbn [span app fst snd]; [congruence|]. destruct (p c) eqn:h; cbn [fst snd]; [|reflexivity].
  intro n. rewrite IH by exact n. reflexivity.
Qed.
Lemma p_int_more s i r x : p_int s = Some (i, r) -> r <> [] -> p_int (s ++ x) = Some (i, r ++ x).
Proof.
  unfold p_int. destruct s as [|c s]; [discriminate|]. cbn [app].
  destruct (c =? 48); [intro h; injection h as <- <-; reflexivity|].
  destruct ((49 <=? c) && (c <=? 57)); [|discriminate]. intros h n. injection h as <- <-. rewrite span_more by exact n. reflexivity.
Qed.
Lemma p_frac_more s i r x : p_frac s = Some (i, r) -> r <> [] -> p_frac (s ++ x) = Some (i, r ++ x).
Proof.
  unfold p_frac. destruct s as [|c s]; [intros h n; injection h as <- <-; contradiction|]. cbn [app].
  destruct (c =? 46); [|intros h n; injection h as <- <-; reflexivity].
  pose proof (span_more isdig s x) as M. destruct (span isdig s) as [d q]. cbn [fst snd] in M.
  destruct d as [|y d]; [discriminate|]. intros h n. injection h as <- <-. rewrite M by exact n. reflexivity.
Qed.
Lemma p_exp_more s i r x : p_exp s = Some (i, r) -> r <> [] -> p_exp (s ++ x) = Some (i, r ++ x).
Proof.
  unfold p_exp. destruct s as [|c s]; [intros h n; injection h as <- <-; contradiction|]. cbn [app].
  destruct ((c =? 101) || (c =? 69)); [|intros h n; injection h as <- <-; reflexivity].
  destruct s as [|g s]; [cbn; discriminate|]. cbn [app].
  destruct ((g =? 43) || (g =? 45)).
  - pose proof (span_more isdig s x) as M. destruct (span isdig s) as [d q]. cbn [fst snd] in M.
    destruct d as [|y d]; [discriminate|]. intros h n. injection h as <- <-. rewrite M by exact n. reflexivity.
  - change (g :: s ++ x) with ((g :: s) ++ x). pose proof (span_more isdig (g :: s) x) as M.
    destruct (span isdig (g :: s)) as [d q]. cbn [fst snd] in M.
    destruct d as [|y d]; [discriminate|]. intros h n. injection h as <- <-. rewrite M by exact n. reflexivity.
Qed.
Lemma pnum_more s v r x : pnum rd s = POk v r -> r <> [] -> pnum rd (s ++ x) = POk v (r ++ x).
Proof.
  intros h n. unfold pnum in *.
  set (sg := match s with c :: r0 => if c =? 45 then ([45], r0) else ([], s) | [] => ([], s) end) in *.
  assert (S : s <> [] -> match s ++ x with c :: r0 => if c =? 45 then ([45], r0) else ([], s ++ x) | [] => ([], s ++ x) end
    = (fst sg, snd sg ++ x)).
  { intro ns. subst sg. destruct s as [|c s]; [contradiction|]. cbn [app]. destruct (c =? 45); reflexivity. }
  rewrite S by (destruct s; [subst sg; discriminate|discriminate]). clear S. destruct sg as [g s0]. cbn [fst snd].
  destruct (p_int s0) as [[i s1]|] eqn:e1; [|discriminate].
  destruct (p_frac s1) as [[fr s2]|] eqn:e2; [|discriminate].
  destruct (p_exp s2) as [[ex s3]|] eqn:e3; [|discriminate].
  assert (R : r = s3).
  { destruct (fr ++ ex); [destruct (is_i64 _); [injection h as _ <-; reflexivity|]|]; destruct (rd _); try discriminate; injection h as _ <-; reflexivity. }
  subst s3.
  assert (n2 : s2 <> []). { destruct (p_exp_rest _ _ _ e3) as (-> & _). destruct ex; cbn; congruence. }
  assert (n1 : s1 <> []). { destruct (p_frac_rest _ _ _ e2) as (-> & _). destruct fr; cbn; congruence. }
  rewrite (p_int_more _ _ _ x e1 n1), (p_frac_more _ _ _ x e2 n2), (p_exp_more _ _ _ x e3 n).
  destruct (fr ++ ex); [destruct (is_i64 _); [congruence|]|]; destruct (rd _); congruence.
Qed.
Lemma parse_more : forall f,
  (forall s v r, pval rd f s = POk v r -> (~ number v \/ r <> []) ->
     forall f' x, (f <= f')%nat -> pval rd f' (s ++ x) = POk v (r ++ x)) /\
  (forall s acc v r, parr rd f s acc = POk v r -> forall f' x, (f <= f')%nat -> parr rd f' (s ++ x) acc = POk v (r ++ x)) /\
  (forall s acc v r, pobj rd f s acc = POk v r -> forall f' x, (f <= f')%nat -> pobj rd f' (s ++ x) acc = POk v (r ++ x)).
Proof.
  induction f as [|f (IV & IA & IO)]; [repeat split; intros; discriminate|]. split; [|split].
  - intros s v r h hn f' x hf. destruct f' as [|f']; [lia|].
    destruct (pval_inv f s v r h) as (w & c & q & hw & -> & hc & H). rewrite <- app_assoc. cbn [app].
    rewrite pval_step, (skip_more w c _ hw hc).
    destruct H as [(-> & b & hb & ->)|[(-> & H)|[(-> & H)|[(-> & E & ->)|[(-> & E & ->)|[(-> & E & ->)|(hd & hp)]]]]]].
    + cbn [Z.eqb Pos.eqb]. rewrite (pstring_more _ _ _ x hb). reflexivity.
    + cbn [Z.eqb Pos.eqb]. destruct H as [(w2 & hw2 & -> & ->)|h2].
      * rewrite <- app_assoc. cbn [app]. rewrite (skip_more w2 125) by auto. reflexivity.
      * destruct (skip_split q) as (w2 & hw2 & e2). pose proof h2 as h3.
        destruct f as [|f]; [discriminate|]. apply pobj_inv in h3.
        destruct h3 as (w1 & r1 & k & r2 & w3 & r3 & y & r4 & w4 & hw1 & e3 & _).
        assert (skip_ws q = 34 :: r1).
        { rewrite <- (skip_skip q), e3. apply skip_more; auto. }
        rewrite e2, <- app_assoc, skip_blank by auto. rewrite H in *. cbn [app] in *. cbn [skip_ws is_space Z.eqb Pos.eqb orb].
        exact (IO _ _ _ _ h2 f' x ltac:(lia)).
    + cbn [Z.eqb Pos.eqb]. destruct H as [(w2 & hw2 & -> & ->)|h2].
      * rewrite <- app_assoc. cbn [app]. rewrite (skip_more w2 93) by auto. reflexivity.
      * destruct (skip_split q) as (w2 & hw2 & e2). pose proof h2 as h3.
        destruct f as [|f]; [discriminate|]. apply parr_inv in h3. destruct h3 as (y & r1 & w3 & h3 & _).
        destruct f as [|f]; [discriminate|]. apply pval_inv in h3.
        destruct h3 as (w4 & c4 & q4 & hw4 & e4 & hc4 & H4).
        assert (E4 : skip_ws q = c4 :: q4). { rewrite <- (skip_skip q), e4. apply skip_more; auto. }
        rewrite e2, <- app_assoc, skip_blank by auto. rewrite E4 in *. cbn [app] in *. rewrite skip_stop by exact hc4.
        assert (N : c4 <> 93). { intros ->. destruct H4 as [(? & _)|[(? & _)|[(? & _)|[(? & _)|[(? & _)|[(? & _)|(? & _)]]]]]]; lia. }
        destruct (Z.eqb_spec c4 93); [contradiction|].
        exact (IA _ _ _ _ h2 f' x ltac:(lia)).
    + cbn [Z.eqb Pos.eqb]. change (116 :: q ++ x) with ((116 :: q) ++ x). rewrite E. unfold plit. rewrite <- app_assoc, strip_app. reflexivity.
    + cbn [Z.eqb Pos.eqb]. change (102 :: q ++ x) with ((102 :: q) ++ x). rewrite E. unfold plit. rewrite <- app_assoc, strip_app. reflexivity.
    + cbn [Z.eqb Pos.eqb]. change (110 :: q ++ x) with ((110 :: q) ++ x). rewrite E. unfold plit. rewrite <- app_assoc, strip_app. reflexivity.
    + repeat match goal with |- context [c =? ?n] => lazymatch n with 45 => fail | _ =>
        replace (c =? n) with false by (symmetry; apply Z.eqb_neq; lia) end end.
      replace ((c =? 45) || isdig c) with true by (symmetry; apply orb_true_iff; rewrite Z.eqb_eq, isdig_iff; exact hd).
      apply (pnum_more (c :: q) v r x hp). destruct (pnum_inv _ _ _ hp) as (_ & _ & hnum & _). tauto.
  - intros s acc v r h f' x hf. destruct f' as [|f']; [lia|].
    destruct (parr_inv f s acc v r h) as (y & r1 & w & hv & hw & H). rewrite parr_step.
    assert (n1 : r1 <> []). { destruct H as [(r2 & -> & _)|(-> & _)]; destruct w; discriminate. }
    rewrite (IV _ _ _ hv (or_intror n1) f' x ltac:(lia)).
    destruct H as [(r2 & -> & h2)|(-> & ->)]; rewrite <- app_assoc; cbn [app];
      (rewrite skip_more by auto); cbn [Z.eqb Pos.eqb]; [|reflexivity].
    apply (IA _ _ _ _ h2). lia.
  - intros s acc v r h f' x hf. destruct f' as [|f']; [lia|].
    destruct (pobj_inv f s acc v r h) as (w1 & r1 & k & r2 & w2 & r3 & y & r4 & w3 & hw1 & -> & hk & hw2 & -> & hv & hw3 & H).
    rewrite pobj_step. rewrite <- app_assoc. cbn [app]. rewrite (skip_more w1 34) by auto. cbn [Z.eqb Pos.eqb].
    rewrite (pstring_more _ _ _ x hk), <- app_assoc. cbn [app]. rewrite (skip_more w2 58) by auto. cbn [Z.eqb Pos.eqb].
    assert (n1 : r4 <> []). { destruct H as [(r5 & -> & _)|(-> & _)]; destruct w3; discriminate. }
    rewrite (IV _ _ _ hv (or_intror n1) f' x ltac:(lia)).
    destruct H as [(r5 & -> & h2)|(-> & ->)]; rewrite <- app_assoc; cbn [app];
      (rewrite skip_more by auto); cbn [Z.eqb Pos.eqb]; [|reflexivity].
    apply (IO _ _ _ _ h2). lia.
Qed.

(** A text cut short is refused, unless it is a number. *)
Theorem truncated w t v p s : blank w -> jvalue rd i64 t v -> ~ number v -> t = p ++ s -> s <> [] ->
  json_parse rd (w ++ p) = PErr.
Proof.
  intros hw hv hn e hs.
  destruct (json_parse rd (w ++ p)) as [v' r| |] eqn:h; [exfalso| reflexivity | destruct (json_parse_total _ h)].
  assert (N : ~ number v').
  { intro hn'. unfold json_parse in h. rewrite Nat.add_1_r in h. apply pval_inv in h.
    destruct h as (w2 & c & q & hw2 & e2 & hc & H).
    destruct (value_head rd i64 t v hv) as (c0 & t0 & e0 & hc0).
    assert (P : p <> []).
    { intros ->. rewrite app_nil_r in e2. subst w. apply Forall_app in hw. destruct hw as (_ & hw). inversion hw; subst.
      apply space_iff in H2. congruence. }
    destruct p as [|c1 p]; [contradiction|]. cbn [app] in e. rewrite e0 in e. injection e as -> ->.
    assert (E : c1 = c /\ p = q).
    { pose proof (skip_more w c1 p hw (starts_nospace _ hc0)) as A. rewrite e2, (skip_more w2 c q hw2 hc) in A.
      injection A as -> ->. auto. }
    destruct E as (-> & ->).
    assert (D : ~ (c = 45 \/ 48 <= c <= 57)).
    { intro d. subst t. inversion hv; subst; cbn in *; try lia; try tauto.
      destruct H0 as (y & ey & _). cbn in ey. injection ey as ->. lia. }
    assert (V : number v') by exact hn'.
    destruct H as [(_ & b & _ & ->)|[(_ & [(? & _ & _ & ->)|hx])|[(_ & [(? & _ & _ & ->)|hx])|[(_ & _ & ->)|[(_ & _ & ->)|[(_ & _ & ->)|(hd & _)]]]]]]; try contradiction.
    - clear -hx V. revert hx. generalize (skip_ws q) ([] : list (list Z * jv)).
      induction (2 * length (w ++ c :: q))%nat as [|f IH]; intros a acc hx; [discriminate|].
      apply pobj_inv in hx. destruct hx as (? & ? & ? & ? & ? & ? & ? & ? & ? & _ & _ & _ & _ & _ & _ & _ & [(? & _ & hx)|(_ & ->)]); [eauto|contradiction].
    - clear -hx V. revert hx. generalize (skip_ws q) ([] : list jv).
      induction (2 * length (w ++ c :: q))%nat as [|f IH]; intros a acc hx; [discriminate|].
      apply parr_inv in hx. destruct hx as (? & ? & ? & _ & _ & [(? & _ & hx)|(_ & ->)]); [eauto|contradiction]. }
  destruct (parse_more (2 * length (w ++ p) + 1)) as (M & _ & _).
  pose proof (M _ _ _ h (or_introl N) (2 * length (w ++ t) + 1)%nat s) as E.
  rewrite <- app_assoc, <- e in E.
  destruct (parse_mut rd) as (P & _ & _). pose proof (P t v hv (2 * length (w ++ t) + 1)%nat [] w) as Q.
  rewrite app_nil_r in Q. rewrite Q in E; [|rewrite app_length; lia|exact I|exact hw].
  specialize (E ltac:(subst t; rewrite !app_length; lia)).
  injection E as _ A. destruct r; cbn in A; congruence.
Qed.
End Total.
