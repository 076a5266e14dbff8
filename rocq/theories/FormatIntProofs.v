(** The integer directives and text against the specification. *)
From Coq Require Import List Bool ZArith Lia.
From Verif Require Import FormatModel FormatSpec FormatProofs.
Import ListNotations.
Open Scope Z_scope.

Lemma bytes_app : forall a b, bytes (a ++ b) = bytes a + bytes b.
Proof. intros. unfold bytes. induction a as [|x a IH]; cbn; [reflexivity|]. rewrite IH. lia. Qed.
Lemma bytes_ascii : forall t, ascii t = true -> bytes t = len t.
Proof.
  intros t H. induction t as [|c t IH]; [reflexivity|]. cbn in H. apply andb_prop in H. destruct H as [H1 H2]. apply andb_prop in H1. destruct H1 as [H0 H1].
  rewrite len_cons. change (bytes (c :: t)) with (utf8_len c + bytes t). rewrite (IH H2). unfold utf8_len. rewrite H1. reflexivity.
Qed.
Lemma ascii_app : forall a b, ascii (a ++ b) = ascii a && ascii b.
Proof. intros. unfold ascii. apply forallb_app. Qed.
Lemma ascii_pad : forall c n, 0 <= c < 128 -> ascii (pad c n) = true.
Proof. intros c n H. unfold ascii, pad. apply forallb_forall. intros x Hx. apply repeat_spec in Hx. subst. apply andb_true_iff. split; [apply Z.leb_le|apply Z.ltb_lt]; lia. Qed.
Lemma dchar_range : forall u d, 0 <= d < 16 -> 48 <= dchar u d < 128.
Proof. intros u d H. unfold dchar. destruct (Z.ltb_spec d 10); [lia|]. destruct u; lia. Qed.
Lemma dchar_zero : forall u d, 0 <= d < 16 -> dchar u d = 48 <-> d = 0.
Proof. intros u d H. unfold dchar. destruct (Z.ltb_spec d 10); [lia|]. destruct u; lia. Qed.
Lemma ascii_digits : forall u l, is_digits 16 l -> ascii (map (dchar u) l) = true.
Proof.
  intros u l H. unfold ascii. apply forallb_forall. intros x Hx. apply in_map_iff in Hx. destruct Hx as (d & <- & Hd).
  pose proof (dchar_range u d (proj1 (Forall_forall _ _) H d Hd)). apply andb_true_iff. split; [apply Z.leb_le|apply Z.ltb_lt]; lia.
Qed.
Lemma digits_le : forall b l, b <= 16 -> is_digits b l -> is_digits 16 l.
Proof. intros b l H D. eapply Forall_impl; [|exact D]. cbn. intros; lia. Qed.
Lemma width_ok : forall t w l, ascii t = true -> apply_width t w l = spaces t w l.
Proof.
  intros t w l H. unfold apply_width, spaces. rewrite (bytes_ascii t H). destruct (Z.leb_spec w (len t)) as [E|E]; [|reflexivity].
  rewrite pad_neg by lia. destruct l; [rewrite app_nil_r|]; reflexivity.
Qed.
Lemma ascii_sign : forall n f, ascii (sign_of n f) = true.
Proof. intros. unfold sign_of. destruct n, (plus f), (space f); reflexivity. Qed.
(** A text that is wide enough gets no spaces. *)
Lemma spaces_wide : forall t w l, w <= len t -> spaces t w l = t.
Proof. intros t w l H. unfold spaces. rewrite pad_neg by lia. destruct l; [rewrite app_nil_r|]; reflexivity. Qed.
Definition widen (f : flags) (width : Z) (lead ds : text) : text :=
  pad 48 ((if zero f then width - len lead else 0) - len ds) ++ ds.
Lemma prefix_ok : forall neg ds prefix f width, ascii ds = true -> ascii prefix = true -> zero f && (65535 <? width) = false -> zero f && minus f = false ->
  int_with_prefix neg ds prefix f width
  = Ok (spaces (sign_of neg f ++ prefix ++ widen f width (sign_of neg f ++ prefix) ds) width (minus f)).
Proof.
  intros neg ds prefix f width A B L M. unfold int_with_prefix, widen. pose proof (ascii_sign neg f) as S. set (s := sign_of neg f) in *. clearbody s.
  assert (ascii (s ++ prefix ++ ds) = true) as A3 by (rewrite !ascii_app, S, A, B; reflexivity). rewrite (bytes_ascii _ A3).
  pose proof (len_nonneg _ s) as L1. pose proof (len_nonneg _ prefix) as L2. pose proof (len_nonneg _ ds) as L3.
  destruct (zero f) eqn:Z0; cbn [andb] in *.
  - destruct (Z.ltb_spec (len (s ++ prefix ++ ds)) width) as [W|W]; rewrite !len_app in W.
    + rewrite !bytes_ascii by assumption. unfold zeros_to. apply Z.ltb_ge in L. assert ((65535 <? width - len s - len prefix) = false) as -> by (apply Z.ltb_ge; lia).
      cbn [bind]. rewrite M. unfold spaces. rewrite !len_app, len_pad. rewrite pad_neg with (c := 32) by lia. cbn [app].
      replace (width - (len s + len prefix) - len ds) with (width - len s - len prefix - len ds) by lia. reflexivity.
    + rewrite width_ok by exact A3. rewrite pad_neg with (c := 48) by (rewrite !len_app; lia). reflexivity.
  - rewrite width_ok by exact A3. rewrite pad_neg with (c := 48) by lia. reflexivity.
Qed.
Ltac bits c := destruct c; try reflexivity; try exact I; try contradiction; try discriminate;
  match goal with p : positive |- _ => do 6 (try (destruct p; try reflexivity; try exact I; try contradiction; try discriminate)) end.
Definition not_minus (t : text) : Prop := match t with 45 :: _ => False | _ => True end.
Lemma precision_ok : forall ds prec, ascii ds = true -> not_minus ds ->
  int_precision ds prec = match prec with
                          | None => ds
                          | Some p => if (p =? 0) && (match ds with [48] => true | _ => false end) then [] else pad 48 (p - len ds) ++ ds
                          end.
Proof.
  intros ds prec A N. destruct prec as [p|]; [|reflexivity]. unfold int_precision.
  assert ((match ds with 45 :: r => ([45], r) | _ => ([], ds) end) = ([], ds)) as ->.
  { destruct ds as [|c ds]; [reflexivity|]. unfold not_minus in N. clear - N. bits c. }
  rewrite (bytes_ascii ds A). destruct ((p =? 0) && _); [reflexivity|]. destruct (Z.leb_spec p (len ds)) as [E|E]; [rewrite pad_neg by lia; reflexivity|reflexivity].
Qed.
Lemma digits_not_minus : forall u l r, is_digits 16 l -> l <> [] -> not_minus (map (dchar u) l ++ r).
Proof.
  intros u l r H N. destruct l as [|d l]; [contradiction|]. apply Forall_cons_iff in H. destruct H as [D _]. pose proof (dchar_range u d D) as R. cbn.
  set (c := dchar u d) in *. clearbody c. destruct (Z.eq_dec c 45) as [->|E]; [lia|]. clear - E. bits c.
Qed.
Lemma base_ok : forall c, 2 <= base_of c <= 16.
Proof. intros []; cbn; lia. Qed.
Lemma zero_text : forall u base n, 2 <= base <= 16 -> 0 <= n -> match map (dchar u) (digs base n) with [48] => true | _ => false end = (n =? 0).
Proof.
  intros u base n B N. destruct (digs_ok base n ltac:(lia) N) as (W & D & NE & H & Z0). destruct (Z.eqb_spec n 0) as [E|E]; [rewrite (Z0 E); reflexivity|].
  specialize (H ltac:(lia)). destruct (digs base n) as [|d l]; [contradiction|]. cbn [hd] in H. apply Forall_cons_iff in D. destruct D as [D _]. cbn [map].
  pose proof (proj1 (dchar_zero u d ltac:(lia))) as Q. set (c := dchar u d) in *. clearbody c. destruct (Z.eq_dec c 48) as [->|E2]; [specialize (Q eq_refl); lia|].
  clear - E2. bits c.
Qed.

(** The digits with their precision. *)
Definition precise (v : Z) (D : text) (prec : option Z) : text :=
  match prec with None => D | Some p => if (p =? 0) && (v =? 0) then [] else pad 48 (p - len D) ++ D end.
Lemma precise_ok : forall u base v prec, 2 <= base <= 16 ->
  int_precision (numeral base u (Z.abs v)) prec = precise v (numeral base u (Z.abs v)) prec.
Proof.
  intros u base v prec B. destruct (digs_ok base (Z.abs v) ltac:(lia) ltac:(lia)) as (W & D & NE & _ & _). unfold numeral.
  rewrite precision_ok.
  - unfold precise. destruct prec as [p|]; [|reflexivity]. rewrite zero_text by lia. destruct (Z.eqb_spec v 0) as [->|]; [reflexivity|].
    destruct (Z.eqb_spec (Z.abs v) 0); [lia|reflexivity].
  - apply ascii_digits, (digits_le base); [lia|exact D].
  - rewrite <- app_nil_r. apply digits_not_minus; [apply (digits_le base); [lia|exact D]|exact NE].
Qed.
Lemma ascii_precise : forall v D prec, ascii D = true -> ascii (precise v D prec) = true.
Proof.
  intros v D prec A. unfold precise. destruct prec as [p|]; [|exact A]. destruct (_ && _); [reflexivity|]. rewrite ascii_app, A, ascii_pad by lia. reflexivity.
Qed.
Lemma flags_plain : forall ds f w, not_minus ds -> int_with_flags ds f w = int_with_prefix false ds [] f w.
Proof.
  intros ds f w N. unfold int_with_flags, int_with_prefix.
  assert ((match ds with 45 :: r => (true, r) | _ => (false, ds) end) = (false, ds)) as ->.
  { destruct ds as [|c ds]; [reflexivity|]. unfold not_minus in N. clear - N. bits c. }
  cbn [app]. change (bytes []) with 0. rewrite Z.sub_0_r. reflexivity.
Qed.
Lemma flags_minus : forall ds f w, int_with_flags (45 :: ds) f w = int_with_prefix true ds [] f w.
Proof. intros. unfold int_with_flags, int_with_prefix. cbn [app]. change (bytes []) with 0. rewrite Z.sub_0_r. reflexivity. Qed.
Lemma precise_not_minus : forall v D prec, not_minus D -> not_minus (precise v D prec).
Proof.
  intros v D prec N. unfold precise. destruct prec as [p|]; [|exact N]. destruct (_ && _); [exact I|]. unfold pad. destruct (Z.to_nat (p - len D)); [exact N|exact I].
Qed.
Lemma start_pad : forall n t, 0 < n -> starts_zero (pad 48 n ++ t) = true.
Proof. intros n t H. unfold pad. destruct (Z.to_nat n) eqn:E; [lia|reflexivity]. Qed.
Lemma pad_one : forall c n, 0 < n -> pad c n = c :: pad c (n - 1).
Proof. intros c n H. unfold pad. replace (Z.to_nat n) with (S (Z.to_nat (n - 1))) by lia. reflexivity. Qed.
Lemma start_digits : forall u base n, 2 <= base <= 16 -> 0 <= n -> starts_zero (map (dchar u) (digs base n)) = (n =? 0).
Proof.
  intros u base n B N. destruct (digs_ok base n ltac:(lia) N) as (W & D & NE & H & Z0). destruct (Z.eqb_spec n 0) as [E|E]; [rewrite (Z0 E); reflexivity|].
  specialize (H ltac:(lia)). destruct (digs base n) as [|d l]; [contradiction|]. cbn [hd] in H. apply Forall_cons_iff in D. destruct D as [D _]. cbn [map starts_zero].
  pose proof (proj1 (dchar_zero u d ltac:(lia))) as Q. set (c := dchar u d) in *. clearbody c. destruct (Z.eq_dec c 48) as [->|E2]; [specialize (Q eq_refl); lia|].
  clear - E2. bits c.
Qed.
(** The digits of the specification: precision, or zeros up to the width. *)
Definition lead_len (c : conv) (v : Z) (f : flags) (sign : text) : Z :=
  len sign + len (if sharp f && negb (v =? 0) then match c with CBin _ | CHex _ => mark_of c | _ => [] end else []).
Lemma widen_ok : forall v D prec f width lead, negb (zero f && minus f) && negb (zero f && given prec) = true -> (v = 0 -> len D = 1) ->
  widen f width lead (precise v D prec)
  = (let ds := if (v =? 0) && match prec with Some 0 => true | _ => false end then [] else D in
     pad 48 (match prec with Some p => p | None => if zero f && negb (minus f) then width - len lead else 0 end - len ds) ++ ds).
Proof.
  intros v D prec f width lead F V. apply andb_prop in F. destruct F as [F1 F2]. apply negb_true_iff in F1, F2. unfold widen, precise. destruct prec as [p|]; cbn [given] in F2.
  - rewrite andb_true_r in F2. rewrite F2. rewrite pad_neg by (pose proof (len_nonneg _ (if (p =? 0) && (v =? 0) then [] else pad 48 (p - len D) ++ D)); lia). cbn [app].
    destruct (Z.eqb_spec p 0) as [->|Np].
    + destruct (v =? 0); reflexivity.
    + assert ((match p with 0 => true | _ => false end) = false) as -> by (destruct p; [contradiction|reflexivity|reflexivity]). rewrite andb_false_r. reflexivity.
  - rewrite andb_false_r. destruct (zero f); [|reflexivity]. cbn [andb] in F1. rewrite F1. reflexivity.
Qed.
Lemma zero_precise : forall u base v prec, 2 <= base <= 16 -> 0 <= v -> (v = 0 -> match prec with Some p => p <= 1 | None => True end) -> match prec with Some p => 0 <= p | None => True end ->
  is_zero_text (precise v (map (dchar u) (digs base v)) prec) = (v =? 0).
Proof.
  intros u base v prec B V P P0. destruct (digs_ok base v ltac:(lia) V) as (W & D & NE & H & Z0). destruct (Z.eqb_spec v 0) as [->|E].
  - rewrite (Z0 eq_refl). unfold precise. destruct prec as [p|]; [|reflexivity]. specialize (P eq_refl). destruct (Z.eqb_spec p 0) as [->|]; [reflexivity|].
    cbn [andb map]. replace (p - len [dchar u 0]) with 0 by (rewrite len_cons, len_nil; lia). reflexivity.
  - unfold precise. pose proof (start_digits u base v B V) as S. assert ((v =? 0) = false) as E0 by (apply Z.eqb_neq; exact E). rewrite E0 in S.
    assert (forall q, is_zero_text (pad 48 q ++ map (dchar u) (digs base v)) = false) as Q.
    { intros q. unfold pad. destruct (Z.to_nat q) as [|[|k]]; cbn [repeat app].
      - destruct (map (dchar u) (digs base v)) as [|c r] eqn:M; [destruct (digs base v); [contradiction|discriminate]|]. unfold starts_zero in S. unfold is_zero_text. clear - S; destruct r; bits c.
      - destruct (map (dchar u) (digs base v)) as [|c r] eqn:M; [destruct (digs base v); [contradiction|discriminate]|reflexivity].
      - reflexivity. }
    destruct prec as [p|]; [rewrite E0, andb_false_r; apply Q|exact (Q 0)].
Qed.

Lemma small_case : forall u l, is_digits 2 l -> map (dchar u) l = map (dchar false) l.
Proof.
  intros u l D. induction D as [|d l H D IH]; [reflexivity|]. cbn [map]. rewrite IH. f_equal. unfold dchar. destruct (Z.ltb_spec d 10); [reflexivity|lia].
Qed.
Definition plain_mark (c : conv) (v : Z) (f : flags) : text :=
  if sharp f && negb (v =? 0) then match c with CBin _ | CHex _ => mark_of c | _ => [] end else [].
Lemma ascii_mark : forall c v f, ascii (plain_mark c v f) = true.
Proof. intros c v f. unfold plain_mark. destruct (sharp f && negb (v =? 0)); [|reflexivity]. destruct c as [|[]| |[]]; reflexivity. Qed.
(** The specification in the terms of the model. *)
Definition shared_int (c : conv) (v : Z) (f : flags) (width : Z) (prec : option Z) : text :=
  let base := base_of c in
  let upper := match c with CHex u => u | _ => false end in
  let signed := match c with CDec => true | _ => plus f || space f end in
  let dots := (v <? 0) && negb signed in
  let ds := if dots then complement base (- v) else if (v =? 0) && match prec with Some 0 => true | _ => false end then [] else digs base (Z.abs v) in
  let ds := map (dchar upper) ds in
  let fill := if dots then dchar upper (base - 1) else 48 in
  let sign := if dots then [46; 46] else sign_of (v <? 0) f in
  let mark := if sharp f && negb (v =? 0) then match c with CBin _ | CHex _ => mark_of c | _ => [] end else [] in
  let least := match prec with
               | Some p => if dots then p - 2 else p
               | None => if zero f && negb (minus f) then width - len sign - len mark else 0
               end in
  let ds := pad fill (least - len ds) ++ ds in
  let ds := match c with COct => if sharp f && negb dots && negb (starts_zero ds) then 48 :: ds else ds | _ => ds end in
  spaces (if dots then mark ++ sign ++ ds else sign ++ mark ++ ds) width (minus f).

Lemma digit_same : forall u d, 0 <= d < 16 -> ruby_digit u d = dchar u d.
Proof.
  intros u d H. assert (forallb (fun k => (ruby_digit u (Z.of_nat k) =? dchar u (Z.of_nat k))) (seq 0 16) = true) as Q by (destruct u; vm_compute; reflexivity).
  pose proof (proj1 (forallb_forall _ _) Q (Z.to_nat d) ltac:(apply in_seq; lia)) as B. cbv beta in B. rewrite Z2Nat.id in B by lia. apply Z.eqb_eq. exact B.
Qed.
Lemma digits_same : forall u base l, base <= 16 -> is_digits base l -> map (ruby_digit u) l = map (dchar u) l.
Proof. intros u base l B D. apply map_ext_in. intros d I. apply digit_same. pose proof (proj1 (Forall_forall _ _) D d I). cbv beta in *. lia. Qed.
Lemma int_shared : forall c v f width prec, ruby_int c v f width prec = shared_int c v f width prec.
Proof.
  intros c v f width prec. unfold ruby_int, shared_int. cbv zeta. change (ruby_base c) with (base_of c). pose proof (base_ok c) as B.
  assert (ruby_sign (v <? 0) f = sign_of (v <? 0) f) as -> by (unfold ruby_sign, sign_of; destruct (v <? 0), (plus f), (space f); reflexivity).
  assert (ruby_mark c = match c with CBin _ | CHex _ => mark_of c | _ => [] end) as -> by (destruct c as [|[]| |[]]; reflexivity).
  rewrite digit_same by lia. set (u := match c with CHex u => u | _ => false end). clearbody u.
  destruct ((v <? 0) && negb (match c with CDec => true | _ => plus f || space f end)) eqn:S.
  - apply andb_prop in S. destruct S as [N _]. apply Z.ltb_lt in N. destruct (neg_minimal_ok (base_of c) (- v) ltac:(lia) ltac:(lia)) as [CO DI].
    rewrite CO in DI. rewrite (digits_same u (base_of c) _ ltac:(lia) DI). reflexivity.
  - destruct (digs_ok (base_of c) (Z.abs v) ltac:(lia) ltac:(lia)) as (_ & D & _).
    destruct ((v =? 0) && match prec with Some 0 => true | _ => false end); [reflexivity|]. rewrite (digits_same u (base_of c) _ ltac:(lia) D). reflexivity.
Qed.
(** With a sign. *)
Lemma signed_ok : forall c v f width prec, fair_int c v f width prec = true -> match prec with Some p => 0 <= p | None => True end ->
  (v <? 0) && negb (match c with CDec => true | _ => plus f || space f end) = false ->
  format_int c v f width prec = Ok (shared_int c v f width prec).
Proof.
  intros c v f width prec F P0 S. unfold fair_int in F. apply andb_prop in F. destruct F as [F F4]. apply andb_prop in F. destruct F as [F12 F3].
  pose proof F12 as F. apply andb_prop in F. destruct F as [F1 F2]. apply negb_true_iff in F1, F2, F3.
  pose proof (base_ok c) as B. destruct (digs_ok (base_of c) (Z.abs v) ltac:(lia) ltac:(lia)) as (W & D & NE & H & Z0).
  assert (forall u, ascii (map (dchar u) (digs (base_of c) (Z.abs v))) = true) as AD by (intros u; apply ascii_digits, (digits_le (base_of c)); [lia|exact D]).
  assert (forall u, not_minus (map (dchar u) (digs (base_of c) (Z.abs v)))) as NM
    by (intros u; rewrite <- app_nil_r; apply digits_not_minus; [apply (digits_le (base_of c)); [lia|exact D]|exact NE]).
  assert (forall u, v = 0 -> len (map (dchar u) (digs (base_of c) (Z.abs v))) = 1) as L1 by (intros u ->; rewrite (Z0 eq_refl); reflexivity).
  assert (forall u, starts_zero (map (dchar u) (digs (base_of c) (Z.abs v))) = (v =? 0)) as SZ.
  { intros u. rewrite start_digits by lia. destruct (Z.eqb_spec v 0) as [->|]; [reflexivity|]. destruct (Z.eqb_spec (Z.abs v) 0); [lia|reflexivity]. }
  unfold shared_int. rewrite S. cbv zeta.
  assert (forall u, map (dchar u) (if (v =? 0) && match prec with Some 0 => true | _ => false end then [] else digs (base_of c) (Z.abs v))
          = if (v =? 0) && match prec with Some 0 => true | _ => false end then [] else map (dchar u) (digs (base_of c) (Z.abs v))) as MI
    by (intros u; clear; destruct ((v =? 0) && match prec with Some 0 => true | _ => false end); reflexivity). rewrite MI.
  (* the general shape *)
  assert (forall u prefix, ascii prefix = true ->
    int_with_prefix (v <? 0) (precise v (map (dchar u) (digs (base_of c) (Z.abs v))) prec) prefix f width
    = Ok (spaces (sign_of (v <? 0) f ++ prefix ++
        (let ds := if (v =? 0) && match prec with Some 0 => true | _ => false end then [] else map (dchar u) (digs (base_of c) (Z.abs v)) in
         pad 48 (match prec with Some p => p | None => if zero f && negb (minus f) then width - len (sign_of (v <? 0) f ++ prefix) else 0 end - len ds) ++ ds))
       width (minus f))) as G.
  { intros u prefix A. rewrite prefix_ok; [|apply ascii_precise, AD|exact A|exact F3|exact F1]. rewrite widen_ok; [reflexivity|exact F12|exact (L1 u)]. }
  assert (match c with CBin _ | CHex _ => True | _ => False end ->
    int_with_prefix (v <? 0) (precise v (map (dchar (match c with CHex u => u | _ => false end)) (digs (base_of c) (Z.abs v))) prec) (plain_mark c v f) f width
    = Ok (shared_int c v f width prec)) as GM.
  { intros K. rewrite G by apply ascii_mark. unfold shared_int. rewrite S. cbv zeta. rewrite MI. unfold plain_mark. rewrite len_app, Z.sub_add_distr.
    destruct c; try contradiction; reflexivity. }
  unfold shared_int in GM. rewrite S in GM. cbv zeta in GM. rewrite MI in GM.
  destruct c as [|u| |u]; cbn [base_of upper_of] in *; unfold format_int.
  - (* decimal *)
    assert (int_with_flags (int_precision ((if v <? 0 then [45] else []) ++ numeral 10 false (Z.abs v)) prec) f width
            = int_with_prefix (v <? 0) (precise v (map (dchar false) (digs 10 (Z.abs v))) prec) [] f width) as ->.
    { pose proof (precise_ok false 10 v prec ltac:(lia)) as PO. unfold numeral in *. rewrite <- PO. destruct (Z.ltb_spec v 0) as [N|N].
      - cbn [app]. rewrite <- flags_minus. f_equal. unfold int_precision at 1. cbn [app].
        rewrite (precision_ok _ prec (AD false) (NM false)). destruct prec as [p|]; [|reflexivity]. rewrite zero_text by lia.
        assert ((Z.abs v =? 0) = false) as EZ by (apply Z.eqb_neq; lia).
        assert ((match 45 :: map (dchar false) (digs 10 (Z.abs v)) with [48] => true | _ => false end) = false) as QQ by reflexivity.
        rewrite EZ, !andb_false_r. rewrite (bytes_ascii _ (AD false)). destruct (Z.leb_spec p (len (map (dchar false) (digs 10 (Z.abs v))))) as [L|L]; [rewrite pad_neg by lia; reflexivity|reflexivity].
      - cbn [app]. apply flags_plain. rewrite PO. apply precise_not_minus, NM. }
    rewrite G by reflexivity. destruct (sharp f && negb (v =? 0)); rewrite app_nil_r, len_nil, Z.sub_0_r; reflexivity.
  - (* binary *)
    rewrite <- GM by exact I. cbn [base_of upper_of]. destruct (Z.ltb_spec v 0) as [N|N].
    + cbn [andb] in S. apply negb_false_iff in S. rewrite S. rewrite precise_ok by lia. unfold numeral, plain_mark.
      assert ((v =? 0) = false) as -> by (apply Z.eqb_neq; lia). rewrite andb_true_r. reflexivity.
    + rewrite precise_ok by lia. unfold numeral, plain_mark. f_equal. rewrite Z.abs_eq by lia. destruct (sharp f) eqn:SH; [|reflexivity]. cbn [andb] in *.
      rewrite zero_precise; [reflexivity|lia|lia| |exact P0]. intros ->. destruct prec as [p|]; [|exact I]. apply negb_true_iff, Z.ltb_ge in F4. exact F4.
  - (* octal *)
    cbn [base_of upper_of]. destruct (Z.ltb_spec v 0) as [N|N].
    + cbn [andb] in S. apply negb_false_iff in S. rewrite S in *. rewrite precise_ok by lia. unfold numeral. assert ((v =? 0) = false) as EZ by (apply Z.eqb_neq; lia).
      rewrite G by (destruct (sharp f); reflexivity). cbn [mark_of]. rewrite EZ in *. cbn [andb negb] in *. rewrite andb_true_r.
      destruct (sharp f) eqn:SH; cbn [andb app] in *; [|rewrite app_nil_r, !len_nil, !Z.sub_0_r; reflexivity].
      f_equal. f_equal. set (s := sign_of true f). set (DD := map (dchar false) (digs 8 (Z.abs v))) in *. pose proof (SZ false : starts_zero DD = _) as SZF. rewrite len_nil, Z.sub_0_r.
      f_equal. rewrite len_app. change (len [48]) with 1.
      destruct prec as [p|].
      * replace (- v) with (Z.abs v) in F4 by lia. assert (p <= len DD) as LE by (unfold DD; rewrite len_map; apply negb_true_iff, Z.ltb_ge in F4; exact F4).
        rewrite pad_neg by lia. cbn [app]. rewrite SZF. reflexivity.
      * destruct (zero f && negb (minus f)).
        -- destruct (Z.ltb_spec 0 (width - len s - len DD)) as [L|L].
           ++ rewrite start_pad by lia. rewrite (pad_one 48 (width - len s - len DD)) by lia. cbn [app negb]. f_equal. f_equal. f_equal. lia.
           ++ rewrite (pad_neg 48 (width - len s - len DD)) by lia. rewrite pad_neg by lia. cbn [app]. rewrite SZF. reflexivity.
        -- rewrite pad_neg by (pose proof (len_nonneg _ DD); lia). cbn [app]. rewrite SZF. reflexivity.
    + rewrite precise_ok by lia. unfold numeral. set (DD := map (dchar false) (digs 8 (Z.abs v))) in *. pose proof (SZ false : starts_zero DD = _) as SZF.
      assert ((match precise v DD prec with 48 :: _ => [] | _ => [48] end) = if starts_zero (precise v DD prec) then [] else [48]) as ->.
      { destruct (precise v DD prec) as [|q r]; [reflexivity|]. unfold starts_zero. clear. bits q. }
      assert (ascii (if sharp f then if starts_zero (precise v DD prec) then [] else [48] else []) = true) as AP by (clear; destruct (sharp f); [destruct (starts_zero (precise v DD prec)); reflexivity|reflexivity]).
      pose proof (G false _ AP) as GG. fold DD in GG. rewrite GG. clear GG AP.
      assert ((if sharp f && negb (v =? 0) then [] else []) = (@nil Z)) as -> by (clear; destruct (sharp f && negb (v =? 0)); reflexivity). cbn [andb negb app]. rewrite len_nil, Z.sub_0_r, andb_true_r.
      destruct (sharp f); cbn [andb app]; [|rewrite app_nil_r; reflexivity].
      f_equal. f_equal. f_equal. set (s := sign_of false f). unfold precise.
      destruct prec as [p|].
      * destruct (Z.eqb_spec p 0) as [->|Np].
        -- cbn [andb]. rewrite andb_true_r. clear; destruct (v =? 0); [reflexivity|]. match goal with |- context [starts_zero ?x] => destruct (starts_zero x); reflexivity end.
        -- assert ((match p with 0 => true | _ => false end) = false) as -> by (destruct p; [contradiction|reflexivity|reflexivity]). rewrite andb_false_r. cbn [andb].
           clear; match goal with |- context [starts_zero ?x] => destruct (starts_zero x); reflexivity end.
      * rewrite andb_false_r. rewrite SZF. destruct (Z.eqb_spec v 0) as [E|E]; cbn [app negb].
        -- rewrite app_nil_r. assert (starts_zero (pad 48 ((if zero f && negb (minus f) then width - len s else 0) - len DD) ++ DD) = true) as ->; [|reflexivity].
           unfold pad. match goal with |- context [Z.to_nat ?x] => destruct (Z.to_nat x); [exact SZF|reflexivity] end.
        -- rewrite len_app. change (len [48]) with 1. destruct (zero f && negb (minus f)).
           ++ destruct (Z.ltb_spec 0 (width - len s - len DD)) as [L|L].
              ** rewrite start_pad by lia. cbn [negb]. rewrite (pad_one 48 (width - len s - len DD)) by lia. cbn [app]. f_equal. f_equal. f_equal. lia.
              ** rewrite (pad_neg 48 (width - len s - len DD)) by lia. rewrite pad_neg by lia. cbn [app]. rewrite SZF. reflexivity.
           ++ rewrite pad_neg by (pose proof (len_nonneg _ DD); lia). cbn [app]. rewrite SZF. reflexivity.
  - (* hexadecimal *)
    rewrite <- GM by exact I. cbn [base_of upper_of]. destruct (Z.ltb_spec v 0) as [N|N].
    + cbn [andb] in S. apply negb_false_iff in S. rewrite S. rewrite precise_ok by lia. unfold numeral, plain_mark.
      assert ((v =? 0) = false) as -> by (apply Z.eqb_neq; lia). rewrite andb_true_r. reflexivity.
    + rewrite precise_ok by lia. unfold numeral, plain_mark. f_equal. rewrite Z.abs_eq by lia. destruct (sharp f) eqn:SH; [|reflexivity]. cbn [andb] in *.
      rewrite zero_precise; [reflexivity|lia|lia| |exact P0]. intros ->. destruct prec as [p|]; [|exact I]. apply negb_true_iff, Z.ltb_ge in F4. exact F4.
Qed.
(** As a complement. *)
Lemma dots_ok : forall c v f width prec, fair_int c v f width prec = true ->
  (v <? 0) && negb (match c with CDec => true | _ => plus f || space f end) = true ->
  format_int c v f width prec = Ok (shared_int c v f width prec).
Proof.
  intros c v f width prec F S. unfold fair_int in F. apply andb_prop in F. destruct F as [F _]. apply andb_prop in F. destruct F as [F _].
  apply andb_prop in F. destruct F as [F1 F2]. apply negb_true_iff in F1, F2. unfold shared_int. rewrite S. cbv zeta. apply andb_prop in S. destruct S as [N S]. apply Z.ltb_lt in N.
  assert ((v =? 0) = false) as EZ by (apply Z.eqb_neq; lia). rewrite EZ. cbn [negb].
  pose proof (base_ok c) as B. replace (- v) with (Z.abs v) by lia. destruct (neg_minimal_ok (base_of c) (Z.abs v) ltac:(lia) ltac:(lia)) as [CO DI].
  assert (forall u base pre, 2 <= base <= 16 -> neg_minimal base (digs base (Z.abs v)) = complement base (Z.abs v) ->
    is_digits base (complement base (Z.abs v)) -> ascii pre = true ->
    neg_tc (digs base (Z.abs v)) base u prec pre f width
    = Ok (spaces (pre ++ [46; 46] ++ pad (dchar u (base - 1))
        (match prec with Some p => p - 2 | None => if zero f && negb (minus f) then width - len [46; 46] - len pre else 0 end - len (map (dchar u) (complement base (Z.abs v))))
        ++ map (dchar u) (complement base (Z.abs v))) width (minus f))) as G.
  { clear - F1 F2. intros u base pre B CO DI A. unfold neg_tc. rewrite CO. assert (ascii (map (dchar u) (complement base (Z.abs v))) = true) as AC by (apply ascii_digits, (digits_le base); [lia|exact DI]).
    set (C := map (dchar u) (complement base (Z.abs v))) in *. clearbody C. pose proof (dchar_range u (base - 1) ltac:(lia)) as R. set (fill := dchar u (base - 1)) in *. clearbody fill.
    pose proof (len_nonneg _ C) as LC. pose proof (len_nonneg _ pre) as LP. rewrite !(bytes_ascii pre A). destruct prec as [p|]; cbn [given] in F2.
    - rewrite (bytes_ascii C AC). rewrite andb_true_r in F2. rewrite F2. cbn [andb]. rewrite width_ok.
      + destruct (Z.leb_spec (p - 2) (len C)) as [L|L]; [rewrite !pad_neg by lia; reflexivity|]. replace (Z.max (len C) (p - 2) - len C) with (p - 2 - len C) by lia. reflexivity.
      + rewrite !ascii_app, A, AC, ascii_pad by lia. reflexivity.
    - rewrite (bytes_ascii C AC). destruct (zero f); cbn [andb].
      + cbn [andb] in F1. rewrite F1. cbn [negb andb]. change (len [46; 46]) with 2. destruct (Z.ltb_spec (len pre + 2 + len C) width) as [L|L].
        * rewrite spaces_wide; [replace (width - 2 - len pre - len C) with (width - (len pre + 2 + len C)) by lia; reflexivity|]. rewrite !len_app, len_pad. change (len [46; 46]) with 2. lia.
        * rewrite width_ok by (rewrite !ascii_app, A, AC; reflexivity). rewrite pad_neg by lia. reflexivity.
      + rewrite width_ok by (rewrite !ascii_app, A, AC; reflexivity). rewrite pad_neg by lia. reflexivity. }
  destruct c as [|u| |u]; [discriminate S| | |]; cbn [base_of] in *; unfold format_int; cbn [base_of]; apply negb_true_iff in S; rewrite S;
    (assert ((v <? 0) = true) as -> by (apply Z.ltb_lt; exact N)).
  - rewrite (G u 2); [|lia|exact CO|rewrite <- CO; exact DI|destruct (sharp f); [destruct u|]; reflexivity]. rewrite (small_case u) by (rewrite <- CO; exact DI).
    assert (dchar u (2 - 1) = dchar false (2 - 1)) as -> by reflexivity. rewrite andb_true_r. reflexivity.
  - rewrite (G false 8); [|lia|exact CO|rewrite <- CO; exact DI|reflexivity]. rewrite andb_false_r. destruct (sharp f); reflexivity.
  - rewrite (G u 16); [|lia|exact CO|rewrite <- CO; exact DI|destruct (sharp f); [destruct u|]; reflexivity]. rewrite andb_true_r. reflexivity.
Qed.
Theorem int_ok : forall c v f width prec, fair_int c v f width prec = true -> match prec with Some p => 0 <= p | None => True end ->
  format_int c v f width prec = Ok (ruby_int c v f width prec).
Proof.
  intros c v f width prec F P. rewrite int_shared. destruct ((v <? 0) && negb (match c with CDec => true | _ => plus f || space f end)) eqn:S; [apply dots_ok|apply signed_ok]; assumption.
Qed.
Theorem text_ok : forall t f width prec, ascii t = true -> match prec with Some p => 0 <= p | None => True end ->
  format_text t f width prec = ruby_text t f width prec.
Proof.
  intros t f width prec A P. unfold format_text, ruby_text. destruct prec as [p|]; [|apply width_ok; exact A].
  assert (forall n, ascii (firstn n t) = true) as AF.
  { intros n. unfold ascii in *. rewrite forallb_forall in *. intros x I. apply A. revert I. clear. revert t. induction n; intros [|a t]; cbn [firstn]; intros I; try contradiction.
    destruct I as [I|I]; [left; exact I|right; apply IHn, I]. }
  destruct (Z.ltb_spec p (len t)) as [L|L]; [apply width_ok, AF|]. rewrite firstn_all2 by (unfold len in L; lia). apply width_ok; exact A.
Qed.
