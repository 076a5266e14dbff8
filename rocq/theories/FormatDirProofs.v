(** A whole format. *)
From Coq Require Import List Bool ZArith Lia.
From Verif Require Import FormatModel FormatSpec FormatProofs FormatIntProofs FormatReadProofs.
Import ListNotations.
Open Scope Z_scope.

Section Formats.
Variable value : Type.
Variable star : value -> option Z.
Variable convert : Z -> flags -> Z -> option Z -> value -> out.
(** What is behind the flags and the number of the argument. *)
Definition body (vs : list value) (a : args) (v : option value) (f : flags) (l : text) : option (out * args * text) :=
  match read_width value star vs a f l with
  | None => None
  | Some (w, f, a, l) =>
      match read_prec value star vs a l with
      | None => None
      | Some (p, a, l) =>
          match read_index value vs a v l with
          | Some (v, a, c :: l) =>
              if conversion c
              then match match v with Some v => Some (v, a) | None => take_next value vs a end with
                   | Some (v, a) => Some (convert c f w p v, a, l)
                   | None => None
                   end
              else None
          | _ => None
          end
      end
  end.
Definition final (vs : list value) (d : dir) (v : option value) (m : mode) : option (value * mode) :=
  match v with Some v => Some (v, m) | None => value_of value vs m d end.
Definition meant (vs : list value) (d : dir) (v : option value) (m : mode) : sout * mode :=
  match amount_of value star vs m (width_of d) with
  | GErr => (SErr, m)
  | GRange => (SRange, m)
  | GNum w m =>
      let left := has 45 d || (or_zero w <? 0) in
      match prec_value value star vs m (prec_of d) with
      | GErr => (SErr, m)
      | GRange => (SRange, m)
      | GNum p m =>
          match final vs d v m with
          | Some (v, m) =>
              let f := mkFl (has 48 d && negb left) left (has 43 d) (has 32 d && negb (has 43 d)) (has 35 d) in
              (shown (convert (last_char d) f (Z.abs (or_zero w)) (prec_num (prec_of d) p) v), m)
          | None => (SErr, m)
          end
      end
  end.
Lemma meant_meaning : forall vs m d, meaning value star convert vs m d = meant vs d None m.
Proof. reflexivity. Qed.
Definition agrees (r : option (out * args * text)) (s : sout * mode) (rest : text) : Prop :=
  match r with
  | Some (o, a, l) => fst s = shown o /\ a = args_of (snd s) /\ l = rest
  | None => fst s = SErr
  end.
(** What stands behind an amount. *)
Lemma width_then : forall d, good_dir d = true -> forall rest, exists c r,
  prec_text (prec_of d) ++ idx d Last ++ last_char d :: rest = c :: r /\
  (digit c = false \/ exists n, width_of d = ANth n) /\ c <> 42 /\ c <> 36 /\ c <> 37 /\ forall f, flag c f = None.
Proof.
  intros d G rest. unfold good_dir in G. apply andb_prop in G. destruct G as [G GC]. apply andb_prop in G. destruct G as [G GI].
  destruct (conversion_char _ GC) as (C1 & C2 & C3 & C4 & C5 & C6). destruct (prec_of d) as [a|].
  - cbn [prec_text app]. eexists; eexists; split; [reflexivity|]. split; [left; reflexivity|]. repeat split; discriminate.
  - cbn [prec_text app].
    assert (exists c r, last_char d :: rest = c :: r /\ (digit c = false \/ (exists n, width_of d = ANth n)) /\ c <> 42 /\ c <> 36 /\ c <> 37 /\ forall f, flag c f = None) as Q
      by (eexists; eexists; split; [reflexivity|]; split; [left; exact C1|]; repeat split; assumption).
    unfold idx. destruct (index d) as [[n p]|]; [|exact Q].
    apply andb_prop in GI. destruct GI as [GN GP]. destruct p; try exact Q.
    destruct (first_digit n (good_num_range n GN)) as (q & t & E & DC & NZ). rewrite E. cbn [app]. eexists; eexists; split; [reflexivity|]. split.
    + right. destruct (width_of d) as [| | |k]; try discriminate GP. exists k. reflexivity.
    + split; [intros ->; discriminate DC|]. split; [intros ->; discriminate DC|]. split; [intros ->; discriminate DC|]. intros f. apply digit_flag; assumption.
Qed.
Lemma prec_then : forall d, good_dir d = true -> forall rest, exists c r,
  idx d Last ++ last_char d :: rest = c :: r /\
  (digit c = false \/ exists n, prec_of d = Some (ANth n) \/ prec_of d = None) /\ c <> 42 /\ c <> 46.
Proof.
  intros d G rest. unfold good_dir in G. apply andb_prop in G. destruct G as [G GC]. apply andb_prop in G. destruct G as [G GI].
  destruct (conversion_char _ GC) as (C1 & C2 & C3 & C4 & C5 & C6).
  unfold idx. destruct (index d) as [[n p]|]; [|cbn [app]; eexists; eexists; split; [reflexivity|]; split; [left; exact C1|split; assumption]].
  apply andb_prop in GI. destruct GI as [GN GP]. destruct p; try (cbn [app]; eexists; eexists; split; [reflexivity|]; split; [left; exact C1|split; assumption]).
  destruct (first_digit n (good_num_range n GN)) as (q & t & E & DC & NZ). rewrite E. cbn [app]. eexists; eexists; split; [reflexivity|]. split.
  - right. destruct (prec_of d) as [[| | |k]|]; try discriminate GP; [exists k; left; reflexivity|exists 0; right; reflexivity].
  - split; intros ->; discriminate DC.
Qed.
(** The number of the argument behind the precision. *)
Lemma index_last : forall vs m d v rest, good_dir d = true -> (v <> None -> idx d Last = []) ->
  match v with Some _ => True | None => match index d with Some (_, (First | AfterFlags)) => False | _ => True end end ->
  match match read_index value vs (args_of m) v (idx d Last ++ last_char d :: rest) with
        | Some (v, a, c :: l) =>
            if conversion c
            then match match v with Some v => Some (v, a) | None => take_next value vs a end with
                 | Some (v, a) => Some (v, a, c, l)
                 | None => None
                 end
            else None
        | _ => None
        end with
  | Some (v', a, c, l) => exists m', final vs d v m = Some (v', m') /\ a = args_of m' /\ c = last_char d /\ l = rest
  | None => final vs d v m = None
  end.
Proof.
  intros vs m d v rest G V IX. unfold good_dir in G. apply andb_prop in G. destruct G as [G GC]. apply andb_prop in G. destruct G as [G GI].
  destruct (conversion_char _ GC) as (C1 & C2 & C3 & C4 & C5 & C6). destruct v as [v|].
  - rewrite V by discriminate. cbn [read_index app final]. rewrite GC. exists m. repeat split; reflexivity.
  - unfold final, value_of. unfold idx. destruct (index d) as [[n p]|].
    + destruct p; try contradiction. apply andb_prop in GI. destruct GI as [GN _]. apply good_num_range in GN. cbn [read_index]. rewrite <- app_assoc. cbn [app].
      rewrite positional_ok by exact GN. rewrite nth_ok by lia. unfold mapped. destruct (get value vs m (Some n)) as [[v' m']|]; [|reflexivity]. rewrite GC. exists m'. repeat split; reflexivity.
    + cbn [app read_index]. rewrite positional_none by (left; exact C1). rewrite GC, next_ok. unfold mapped. destruct (get value vs m None) as [[v' m']|]; [|reflexivity]. exists m'. repeat split; reflexivity.
Qed.
Lemma good_parts : forall d, good_dir d = true -> forallb good_flag (fl d) = true /\ good_amount (width_of d) false = true
  /\ match prec_of d with Some a => good_amount a true = true | None => True end
  /\ match index d with Some (n, _) => 0 < n <= int_max | None => True end /\ conversion (last_char d) = true.
Proof.
  intros d G. unfold good_dir in G. apply andb_prop in G. destruct G as [G GC]. apply andb_prop in G. destruct G as [G GI]. apply andb_prop in G. destruct G as [G GP]. apply andb_prop in G. destruct G as [GF GW].
  split; [exact GF|]. split; [exact GW|]. split; [destruct (prec_of d); [exact GP|exact I]|]. split; [|exact GC].
  destruct (index d) as [[n p]|]; [|exact I]. apply andb_prop in GI. destruct GI as [GN _]. apply good_num_range; exact GN.
Qed.
Lemma settled : forall d w, turned (settle (with_flags plain_flags (fl d))) w
  = (let left := has 45 d || (w <? 0) in mkFl (has 48 d && negb left) left (has 43 d) (has 32 d && negb (has 43 d)) (has 35 d)).
Proof.
  intros d w. unfold turned, settle, with_flags, plain_flags, has. cbn [zero minus plus space sharp orb]. destruct (w <? 0).
  - rewrite orb_true_r. cbn [negb]. rewrite andb_false_r. reflexivity.
  - rewrite orb_false_r. reflexivity.
Qed.
Lemma body_ok : forall vs m d v rest, good_dir d = true -> (v <> None -> idx d Last = []) ->
  match v with Some _ => True | None => match index d with Some (_, (First | AfterFlags)) => False | _ => True end end ->
  fst (meant vs d v m) <> SRange ->
  agrees (body vs (args_of m) v (settle (with_flags plain_flags (fl d))) (amount_text (width_of d) ++ prec_text (prec_of d) ++ idx d Last ++ last_char d :: rest)) (meant vs d v m) rest.
Proof.
  intros vs m d v rest G V IX R. destruct (good_parts d G) as (GF & GW & GP & GI & GC). unfold body, meant in *.
  destruct (width_then d G rest) as (c & r & E & H1 & H2 & _).
  pose proof (width_read value star vs m (settle (with_flags plain_flags (fl d))) (width_of d) c r GW H1 H2) as RW. rewrite E.
  destruct (amount_of value star vs m (width_of d)) as [| |w m1]; [rewrite RW; reflexivity|contradiction R; reflexivity|]. rewrite RW. rewrite <- E. clear RW E c r H1 H2.
  destruct (prec_then d G rest) as (c & r & E & H1 & H2 & H3).
  pose proof (prec_read value star vs m1 (prec_of d) c r GP H1 H2 H3) as RP. rewrite E.
  destruct (prec_value value star vs m1 (prec_of d)) as [| |p m2]; [rewrite RP; reflexivity|contradiction R; reflexivity|]. rewrite RP. rewrite <- E. clear RP E c r H1 H2 H3.
  pose proof (index_last vs m2 d v rest G V IX) as L.
  destruct (read_index value vs (args_of m2) v (idx d Last ++ last_char d :: rest)) as [[[v' a] [|c l]]|].
  - rewrite L. reflexivity.
  - destruct (conversion c); [|rewrite L; reflexivity].
    destruct (match v' with Some v => Some (v, a) | None => take_next value vs a end) as [[v2 a2]|]; [|rewrite L; reflexivity].
    destruct L as (m' & L1 & L2 & L3 & L4). rewrite L1. cbn [agrees fst snd]. rewrite settled, L3. split; [reflexivity|]. split; [exact L2|exact L4].
  - rewrite L. reflexivity.
Qed.
(** The number of the argument taken first: the same. *)
Lemma amount_num : forall vs m a n v, get value vs m (Some n) = Some (v, Num) ->
  match amount_of value star vs m a with
  | GRange => True
  | GErr => amount_of value star vs Num a = GErr
  | GNum w m' => (amount_of value star vs Num a = GNum w Num /\ get value vs m' (Some n) = Some (v, Num))
                 \/ (amount_of value star vs Num a = GErr /\ exists k, m' = Seq k)
  end.
Proof.
  intros vs m a n v H. destruct m as [|k|]; [|discriminate H|].
  - destruct a as [|k| |k]; cbn [amount_of get] in *.
    + left. split; [reflexivity|exact H].
    + left. split; [reflexivity|exact H].
    + destruct vs as [|x vs]; [reflexivity|]. destruct (star x) as [z|]; [|reflexivity]. destruct (_ && _); [|exact I]. right. split; [reflexivity|]. exists 1%nat. reflexivity.
    + destruct (nth_error vs (Z.to_nat (k - 1))) as [x|]; [|reflexivity]. destruct (star x) as [z|]; [|reflexivity]. destruct (_ && _); [|exact I]. left. split; [reflexivity|exact H].
  - destruct a as [|k| |k]; cbn [amount_of get] in *.
    + left. split; [reflexivity|exact H].
    + left. split; [reflexivity|exact H].
    + reflexivity.
    + destruct (nth_error vs (Z.to_nat (k - 1))) as [x|]; [|reflexivity]. destruct (star x) as [z|]; [|reflexivity]. destruct (_ && _); [|exact I]. left. split; [reflexivity|exact H].
Qed.
Lemma amount_seq : forall vs k a, match amount_of value star vs (Seq k) a with GNum _ m' => exists k', m' = Seq k' | _ => True end.
Proof.
  intros vs k a. destruct a as [|n| |n]; cbn [amount_of get]; [exists k; reflexivity|exists k; reflexivity| |exact I].
  destruct (nth_error vs k) as [x|]; [|exact I]. destruct (star x); [|exact I]. destruct (_ && _); [exists (S k); reflexivity|exact I].
Qed.
Lemma get_num : forall vs m n v m', get value vs m (Some n) = Some (v, m') -> m' = Num.
Proof. intros vs m n v m' H. unfold get in H. destruct m; try discriminate H; (destruct (nth_error vs (Z.to_nat (n - 1))); [injection H as _ <-; reflexivity|discriminate H]). Qed.
Lemma amount_none : forall vs m a n, get value vs m (Some n) = None -> match amount_of value star vs m a with GNum _ m' => get value vs m' (Some n) = None | _ => True end.
Proof.
  intros vs m a n H. destruct m as [|k|].
  - destruct a as [|j| |j]; cbn [amount_of get] in *; try exact H.
    + destruct vs as [|x vs]; [exact I|]. destruct (star x) as [z|]; [|exact I]. destruct (_ && _); [|exact I]. reflexivity.
    + destruct (nth_error vs (Z.to_nat (j - 1))) as [x|]; [|exact I]. destruct (star x) as [z|]; [|exact I]. destruct (_ && _); [|exact I]. exact H.
  - pose proof (amount_seq vs k a) as S. destruct (amount_of value star vs (Seq k) a) as [| |w m']; [exact I|exact I|]. destruct S as [k' ->]. reflexivity.
  - destruct a as [|j| |j]; cbn [amount_of get] in *; try exact H; try exact I.
    destruct (nth_error vs (Z.to_nat (j - 1))) as [x|]; [|exact I]. destruct (star x) as [z|]; [|exact I]. destruct (_ && _); [|exact I]. exact H.
Qed.
Lemma prec_num_mode : forall vs m p n v, get value vs m (Some n) = Some (v, Num) ->
  match prec_value value star vs m p with
  | GRange => True
  | GErr => prec_value value star vs Num p = GErr
  | GNum w m' => (prec_value value star vs Num p = GNum w Num /\ get value vs m' (Some n) = Some (v, Num))
                 \/ (prec_value value star vs Num p = GErr /\ exists k, m' = Seq k)
  end.
Proof. intros vs m p n v H. destruct p as [a|]; [apply amount_num; exact H|]. left. split; [reflexivity|exact H]. Qed.
Lemma meant_first : forall vs m d n p, index d = Some (n, p) -> fst (meant vs d None m) <> SRange ->
  match get value vs m (Some n) with
  | Some (v, _) => fst (meant vs d (Some v) Num) = fst (meant vs d None m) /\ (fst (meant vs d None m) <> SErr -> snd (meant vs d (Some v) Num) = snd (meant vs d None m))
  | None => fst (meant vs d None m) = SErr
  end.
Proof.
  intros vs m d n p I R. destruct (get value vs m (Some n)) as [[v m0]|] eqn:GE.
  - pose proof (get_num _ _ _ _ _ GE) as ->. pose proof (amount_num vs m (width_of d) n v GE) as A. unfold meant in *.
    destruct (amount_of value star vs m (width_of d)) as [| |w m1]; [rewrite A; cbn; split; [reflexivity|intros X; contradiction X; reflexivity]|contradiction R; reflexivity|].
    destruct A as [[A1 A2]|[A1 [k ->]]].
    + rewrite A1. pose proof (prec_num_mode vs m1 (prec_of d) n v A2) as P.
      destruct (prec_value value star vs m1 (prec_of d)) as [| |z m2]; [rewrite P; cbn; split; [reflexivity|intros X; contradiction X; reflexivity]|contradiction R; reflexivity|].
      destruct P as [[P1 P2]|[P1 [k ->]]].
      * rewrite P1. unfold final, value_of. rewrite I, P2. split; [reflexivity|intros _; reflexivity].
      * rewrite P1. unfold final, value_of. rewrite I. cbn. split; [reflexivity|intros X; contradiction X; reflexivity].
    + rewrite A1. assert (forall (x : sout * mode), fst x = SErr -> fst (SErr, Num) = fst x /\ (fst x <> SErr -> snd (SErr, Num) = snd x)) as Q by (intros x E; rewrite E; split; [reflexivity|intros X; contradiction X; reflexivity]).
      apply Q. clear Q. assert (match prec_value value star vs (Seq k) (prec_of d) with GNum _ m' => exists k', m' = Seq k' | _ => True end) as SQ by (destruct (prec_of d); [apply amount_seq|exists k; reflexivity]).
      destruct (prec_value value star vs (Seq k) (prec_of d)) as [| |z m2]; [reflexivity|contradiction R; reflexivity|]. destruct SQ as [k' ->]. unfold final, value_of. rewrite I. reflexivity.
  - unfold meant in *. pose proof (amount_none vs m (width_of d) n GE) as A. destruct (amount_of value star vs m (width_of d)) as [| |w m1]; [reflexivity|contradiction R; reflexivity|].
    assert (match prec_value value star vs m1 (prec_of d) with GNum _ m' => get value vs m' (Some n) = None | _ => True end) as P by (destruct (prec_of d); [apply amount_none; exact A|exact A]).
    destruct (prec_value value star vs m1 (prec_of d)) as [| |z m2]; [reflexivity|contradiction R; reflexivity|]. unfold final, value_of. rewrite I, P. reflexivity.
Qed.
(** Behind the flags. *)
Definition behind (d : dir) (rest : text) : text := amount_text (width_of d) ++ prec_text (prec_of d) ++ idx d Last ++ last_char d :: rest.
Lemma behind_head : forall d rest, good_dir d = true -> (exists c r, behind d rest = c :: r /\ c <> 37 /\ forall f, flag c f = None) /\ positional (behind d rest) = None.
Proof.
  intros d rest G. destruct (good_parts d G) as (_ & GW & _). unfold behind. destruct (width_then d G rest) as (c & r & E & H1 & H2 & H3 & H4 & H5). rewrite E.
  destruct (width_of d) as [|n| |n]; cbn [amount_text app].
  - split; [exists c, r; repeat split; assumption|]. apply positional_none. destruct H1 as [H1|[n H1]]; [left; exact H1|discriminate H1].
  - cbn [good_amount andb] in GW. rewrite orb_false_r in GW. apply good_num_range in GW. destruct (first_digit n GW) as (q & t & EQ & DC & NZ). split.
    + rewrite EQ. cbn [app]. eexists; eexists; split; [reflexivity|]. split; [intros ->; discriminate DC|]. intros f. apply digit_flag; assumption.
    + apply positional_num; [exact GW| |exact H3]. destruct H1 as [H1|[k H1]]; [exact H1|discriminate H1].
  - split; [eexists; eexists; split; [reflexivity|]; split; [discriminate|reflexivity]|]. apply positional_none. left. reflexivity.
  - split; [eexists; eexists; split; [reflexivity|]; split; [discriminate|reflexivity]|]. apply positional_none. left. reflexivity.
Qed.
Lemma flag_first : forall x, good_flag x = true -> x <> 37 /\ (digit x = false \/ x = 48).
Proof.
  intros x H. unfold good_flag in H. cbn [existsb] in H.
  repeat (apply orb_prop in H; destruct H as [H|H]; [apply Z.eqb_eq in H; subst x; split; [discriminate|]; try (right; reflexivity); left; reflexivity|]). discriminate H.
Qed.
Lemma dir_text_eq : forall d rest, dir_text d ++ rest = idx d First ++ fl d ++ idx d AfterFlags ++ behind d rest.
Proof. intros d rest. unfold dir_text, behind, prec_text. rewrite <- !app_assoc. reflexivity. Qed.
Lemma dir_body : forall vs a l v a' l1 f l2 v2 a2 l3, read_index value vs a None l = Some (v, a', l1) -> read_flags l1 plain_flags = Some (f, l2) ->
  read_index value vs a' v l2 = Some (v2, a2, l3) -> directive value star convert vs a l = body vs a2 v2 (settle f) l3.
Proof. intros vs a l v a' l1 f l2 v2 a2 l3 H1 H2 H3. unfold directive, body. rewrite H1, H2, H3. reflexivity. Qed.
Definition same (r : option (out * args * text)) (s : sout * mode) (rest : text) : Prop :=
  match r with
  | Some (o, a, l) => fst s = shown o /\ (forall t, o = Ok t -> a = args_of (snd s) /\ l = rest)
  | None => fst s = SErr
  end.
Lemma directive_ok : forall vs m d rest, good_dir d = true -> fst (meaning value star convert vs m d) <> SRange ->
  same (directive value star convert vs (args_of m) (dir_text d ++ rest)) (meaning value star convert vs m d) rest.
Proof.
  intros vs m d rest G R. rewrite meant_meaning in *. rewrite dir_text_eq. destruct (good_parts d G) as (GF & GW & GP & GI & GC).
  destruct (behind_head d rest G) as [(c & r & E & N37 & NF) PN].
  (* taken before *)
  assert (forall n p, index d = Some (n, p) -> idx d Last = [] -> 
    (forall v m', get value vs m (Some n) = Some (v, m') ->
      directive value star convert vs (args_of m) (idx d First ++ fl d ++ idx d AfterFlags ++ behind d rest) = body vs (args_of m') (Some v) (settle (with_flags plain_flags (fl d))) (behind d rest)) ->
    (get value vs m (Some n) = None -> directive value star convert vs (args_of m) (idx d First ++ fl d ++ idx d AfterFlags ++ behind d rest) = None) ->
    same (directive value star convert vs (args_of m) (idx d First ++ fl d ++ idx d AfterFlags ++ behind d rest)) (meant vs d None m) rest) as Before.
  { intros n p I L Q1 Q2. pose proof (meant_first vs m d n p I R) as MF. destruct (get value vs m (Some n)) as [[v m0]|] eqn:GE.
    - pose proof (get_num _ _ _ _ _ GE) as ->. rewrite (Q1 v Num eq_refl). destruct MF as [M1 M2].
      pose proof (body_ok vs Num d (Some v) rest G (fun _ => L) Logic.I ltac:(rewrite M1; exact R)) as BO. fold (behind d rest) in BO.
      destruct (body vs (args_of Num) (Some v) (settle (with_flags plain_flags (fl d))) (behind d rest)) as [[[o a] l]|]; cbn [agrees same] in *.
      + destruct BO as (B1 & B2 & B3). rewrite <- M1. split; [exact B1|]. intros t ->. rewrite <- M2; [split; assumption|]. rewrite <- M1, B1. discriminate.
      + rewrite <- M1. exact BO.
    - rewrite (Q2 eq_refl). exact MF. }
  (* not before *)
  assert (match index d with Some (_, (First | AfterFlags)) => False | _ => True end -> 
    directive value star convert vs (args_of m) (fl d ++ behind d rest) = body vs (args_of m) None (settle (with_flags plain_flags (fl d))) (behind d rest)) as After.
  { intros _. apply (dir_body _ _ _ None (args_of m) (fl d ++ behind d rest) _ (behind d rest)).
    - unfold read_index. destruct (fl d) as [|x l]; [cbn [app]; rewrite PN; reflexivity|]. cbn [forallb] in GF. apply andb_prop in GF. destruct GF as [GF _].
      cbn [app]. rewrite positional_none by (apply flag_first; exact GF). reflexivity.
    - rewrite E. apply read_flags_ok; assumption.
    - unfold read_index. rewrite PN. reflexivity. }
  assert (match index d with Some (_, (First | AfterFlags)) => False | _ => True end -> same (directive value star convert vs (args_of m) (fl d ++ behind d rest)) (meant vs d None m) rest) as After2.
  { intros H. rewrite (After H). pose proof (body_ok vs m d None rest G (fun X => match X eq_refl with end) H R) as BO. fold (behind d rest) in BO.
    destruct (body vs (args_of m) None (settle (with_flags plain_flags (fl d))) (behind d rest)) as [[[o a] l]|]; cbn [agrees same] in *; [|exact BO].
    destruct BO as (B1 & B2 & B3). split; [exact B1|]. intros; split; assumption. }
  destruct (index d) as [[n [| |]]|] eqn:IX.
  - (* before the flags *)
    apply (Before n First eq_refl); [unfold idx; rewrite IX; reflexivity| |].
    + intros v m' GE. apply (dir_body _ _ _ (Some v) (args_of m') (fl d ++ behind d rest) _ (behind d rest)).
      * unfold idx. rewrite IX. cbn [app]. rewrite <- app_assoc. cbn [app read_index]. rewrite positional_ok by exact GI. rewrite nth_ok by lia. rewrite GE. cbn [mapped].
        destruct (fl d ++ behind d rest) as [|x l] eqn:X; [|reflexivity]. apply app_eq_nil in X. destruct X as [_ X]. rewrite E in X. discriminate X.
      * rewrite E. apply read_flags_ok; assumption.
      * reflexivity.
    + intros GE. unfold directive, idx. rewrite IX. cbn [app]. rewrite <- app_assoc. cbn [app read_index]. rewrite positional_ok by exact GI. rewrite nth_ok by lia. rewrite GE. reflexivity.
  - (* after them *)
    apply (Before n AfterFlags eq_refl); [unfold idx; rewrite IX; reflexivity| |]; unfold idx; rewrite IX; cbn [app]; rewrite <- app_assoc; cbn [app]; destruct (first_digit n GI) as (q & t & EQ & DC & NZ).
    + intros v m' GE.
      assert (match behind d rest with [] => None | _ :: _ => Some (Some v, args_of m', behind d rest) end = Some (Some v, args_of m', behind d rest)) as NB by (rewrite E; reflexivity).
      destruct (fl d) as [|x l] eqn:FL.
      * apply (dir_body _ _ _ (Some v) (args_of m') (behind d rest) _ (behind d rest)).
        -- cbn [app read_index]. rewrite positional_ok by exact GI. rewrite nth_ok by lia. rewrite GE. exact NB.
        -- rewrite E. apply (read_flags_ok []); [reflexivity|assumption].
        -- reflexivity.
      * apply (dir_body _ _ _ None (args_of m) ((x :: l) ++ decimal n ++ 36 :: behind d rest) _ (decimal n ++ 36 :: behind d rest)).
        -- cbn [app read_index]. cbn [forallb] in GF. apply andb_prop in GF. destruct GF as [GF _]. rewrite positional_none by (apply flag_first; exact GF). reflexivity.
        -- rewrite EQ. cbn [app]. change (x :: l ++ q :: t ++ 36 :: behind d rest) with ((x :: l) ++ q :: t ++ 36 :: behind d rest). apply read_flags_ok; [exact GF|]. intros f. apply digit_flag; assumption.
        -- cbn [read_index]. rewrite positional_ok by exact GI. rewrite nth_ok by lia. rewrite GE. exact NB.
    + intros GE. unfold directive. destruct (fl d) as [|x l] eqn:FL.
      * cbn [app read_index]. rewrite positional_ok by exact GI. rewrite nth_ok by lia. rewrite GE. reflexivity.
      * assert (read_index value vs (args_of m) None ((x :: l) ++ decimal n ++ 36 :: behind d rest) = Some (None, args_of m, (x :: l) ++ decimal n ++ 36 :: behind d rest)) as ->.
        { cbn [app read_index]. cbn [forallb] in GF. apply andb_prop in GF. destruct GF as [GF _]. rewrite positional_none by (apply flag_first; exact GF). reflexivity. }
        assert (read_flags ((x :: l) ++ decimal n ++ 36 :: behind d rest) plain_flags = Some (with_flags plain_flags (x :: l), decimal n ++ 36 :: behind d rest)) as ->.
        { rewrite EQ. cbn [app]. change (x :: l ++ q :: t ++ 36 :: behind d rest) with ((x :: l) ++ q :: t ++ 36 :: behind d rest). apply read_flags_ok; [exact GF|]. intros f. apply digit_flag; assumption. }
        cbn [read_index]. rewrite positional_ok by exact GI. rewrite nth_ok by lia. rewrite GE. reflexivity.
  - (* behind the precision *)
    unfold idx. rewrite IX. cbn [app]. apply After2. exact I.
  - unfold idx. rewrite IX. cbn [app]. apply After2. exact I.
Qed.
(** All of it. *)
Lemma format_dir : forall n vs a c r, c <> 37 -> format value star convert (S n) vs a (37 :: c :: r)
  = match directive value star convert vs a (c :: r) with
    | Some (Ok t, a, r) => bind (format value star convert n vs a r) (fun u => Ok (t ++ u))
    | Some (o, _, _) => o
    | None => Err
    end.
Proof. intros n vs a c r N. cbn [format]. clear - N. bits c. Qed.
Lemma format_text_char : forall n vs a c r, c <> 37 -> format value star convert (S n) vs a (c :: r) = bind (format value star convert n vs a r) (fun t => Ok (c :: t)).
Proof. intros n vs a c r N. cbn [format]. clear - N. bits c. Qed.
Lemma dir_head : forall d rest, good_dir d = true -> exists c r, dir_text d ++ rest = c :: r /\ c <> 37.
Proof.
  intros d rest G. rewrite dir_text_eq. destruct (good_parts d G) as (GF & GW & GP & GI & GC). destruct (behind_head d rest G) as [(c & r & E & N37 & _) _].
  assert (forall n, 0 < n <= int_max -> forall l, exists c r, (decimal n ++ [36]) ++ l = c :: r /\ c <> 37) as Q.
  { intros n H l. destruct (first_digit n H) as (q & t & EQ & DC & _). rewrite EQ. cbn [app]. eexists; eexists; split; [reflexivity|]. intros ->. discriminate DC. }
  assert (exists c r, behind d rest = c :: r /\ c <> 37) as QB by (exists c, r; split; assumption).
  unfold idx. destruct (index d) as [[n [| |]]|]; [apply Q; exact GI| | |]; cbn [app]; (destruct (fl d) as [|x l]; cbn [app];
    [try exact QB; apply Q; exact GI|cbn [forallb] in GF; apply andb_prop in GF; destruct GF as [GF _]; eexists; eexists; split; [reflexivity|]; apply flag_first; exact GF]).
Qed.
Lemma format_ok : forall ps fuel vs m, forallb good_piece ps = true -> (length (render ps) < fuel)%nat -> means value star convert vs m ps <> SRange ->
  shown (format value star convert fuel vs (args_of m) (render ps)) = means value star convert vs m ps.
Proof.
  induction ps as [|p ps IH]; intros fuel vs m G L R.
  - destruct fuel as [|fuel]; [cbn in L; lia|]. reflexivity.
  - cbn [forallb] in G. apply andb_prop in G. destruct G as [G1 G2]. destruct fuel as [|fuel]; [lia|]. change (render (p :: ps)) with (render1 p ++ render ps) in *.
    assert (forall o s, shown o = s -> forall g, (forall t, s = SOk t -> shown (g t) = SOk (match g t with Ok u => u | _ => [] end)) ->
      shown (bind o g) = match s with SOk t => shown (g t) | _ => s end) as SB by (intros o s <- g _; destruct o; reflexivity).
    destruct p as [c| |d]; cbn [render1 app good_piece means] in *.
    + apply negb_true_iff, Z.eqb_neq in G1. rewrite format_text_char by exact G1. cbn [length] in L.
      assert (means value star convert vs m ps <> SRange) as R2 by (intros X; rewrite X in R; contradiction R; reflexivity).
      specialize (IH fuel vs m G2 ltac:(lia) R2). rewrite <- IH. destruct (format value star convert fuel vs (args_of m) (render ps)); reflexivity.
    + cbn [length] in L. assert (means value star convert vs m ps <> SRange) as R2 by (intros X; rewrite X in R; contradiction R; reflexivity).
      specialize (IH fuel vs m G2 ltac:(lia) R2). rewrite <- IH. cbn [format]. destruct (format value star convert fuel vs (args_of m) (render ps)); reflexivity.
    + destruct (dir_head d (render ps) G1) as (c & r & E & N). rewrite E. rewrite format_dir by exact N. rewrite <- E.
      assert (fst (meaning value star convert vs m d) <> SRange) as R1 by (intros X; destruct (meaning value star convert vs m d) as [s m']; cbn [fst] in X; subst s; contradiction R; reflexivity).
      pose proof (directive_ok vs m d (render ps) G1 R1) as D. destruct (meaning value star convert vs m d) as [s m'] eqn:ME.
      destruct (directive value star convert vs (args_of m) (dir_text d ++ render ps)) as [[[o a] l]|]; cbn [same fst snd] in D; [|subst s; reflexivity].
      destruct D as [D1 D2]. destruct o as [t| |]; cbn [shown] in D1; subst s; [|reflexivity|reflexivity]. destruct (D2 t eq_refl) as [-> ->].
      assert (means value star convert vs m' ps <> SRange) as R2 by (intros X; rewrite X in R; contradiction R; reflexivity).
      cbn [length] in L. rewrite app_length in L.
      specialize (IH fuel vs m' G2 ltac:(lia) R2). rewrite <- IH. destruct (format value star convert fuel vs (args_of m') (render ps)); reflexivity.
Qed.
Theorem sprintf_ok : forall ps vs, forallb good_piece ps = true -> means value star convert vs Free ps <> SRange ->
  shown (sprintf value star convert (render ps) vs) = means value star convert vs Free ps.
Proof. intros ps vs G R. unfold sprintf. apply (format_ok ps (S (length (render ps))) vs Free G); [apply Nat.lt_succ_diag_r|exact R]. Qed.
End Formats.
