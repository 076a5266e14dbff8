(** Reading a format gives back the directives it was written from. *)
From Coq Require Import List Bool ZArith Lia.
From Verif Require Import FormatModel FormatSpec FormatProofs FormatIntProofs.
Import ListNotations.
Open Scope Z_scope.

Lemma fold_up : forall l a, is_digits 10 l -> 0 <= a -> a <= fold_left (fun n d => n * 10 + d) l a.
Proof.
  induction l as [|d l IH]; intros a D A; [cbn; lia|]. apply Forall_cons_iff in D. destruct D as [D1 D2]. cbn [fold_left].
  specialize (IH (a * 10 + d) D2 ltac:(lia)). lia.
Qed.
Lemma dchar_ten : forall d, 0 <= d < 10 -> dchar false d = 48 + d.
Proof. intros d H. unfold dchar. destruct (Z.ltb_spec d 10); [reflexivity|lia]. Qed.
Lemma digit_ten : forall d, 0 <= d < 10 -> digit (dchar false d) = true.
Proof. intros d H. rewrite dchar_ten by exact H. unfold digit. apply andb_true_intro. split; apply Z.leb_le; lia. Qed.
Lemma read_num_gen : forall l a c r, is_digits 10 l -> 0 <= a -> digit c = false -> fold_left (fun n d => n * 10 + d) l a < 2 ^ 64 ->
  read_num (map (dchar false) l ++ c :: r) a = Some (fold_left (fun n d => n * 10 + d) l a, c :: r).
Proof.
  induction l as [|d l IH]; intros a c r D A C B.
  - cbn [map app read_num fold_left]. rewrite C. reflexivity.
  - apply Forall_cons_iff in D. destruct D as [D1 D2]. cbn [map app read_num]. rewrite digit_ten by exact D1. rewrite dchar_ten by exact D1. cbn [fold_left] in *.
    replace (a * 10 + (48 + d - 48)) with (a * 10 + d) by lia. pose proof (fold_up l (a * 10 + d) D2 ltac:(lia)) as F.
    assert ((a * 10 + d <? 2 ^ 64) = true) as -> by (apply Z.ltb_lt; lia). apply IH; [exact D2|lia|exact C|exact B].
Qed.
Lemma wrapped_gen : forall l a, is_digits 10 l -> 0 <= a -> fold_left (fun n d => n * 10 + d) l a < 2 ^ 64 ->
  fold_left (fun n c => (n * 10 + (c - 48)) mod 2 ^ 64) (map (dchar false) l) a = fold_left (fun n d => n * 10 + d) l a.
Proof.
  induction l as [|d l IH]; intros a D A B; [reflexivity|]. apply Forall_cons_iff in D. destruct D as [D1 D2]. cbn [map fold_left] in *. rewrite dchar_ten by exact D1.
  replace (a * 10 + (48 + d - 48)) with (a * 10 + d) by lia. pose proof (fold_up l (a * 10 + d) D2 ltac:(lia)) as F. rewrite Z.mod_small by lia.
  apply IH; [exact D2|lia|exact B].
Qed.
Lemma span_gen : forall l r, is_digits 10 l -> match r with c :: _ => digit c = false | [] => True end -> span (map (dchar false) l ++ r) = (map (dchar false) l, r).
Proof.
  induction l as [|d l IH]; intros r D C.
  - cbn [map app]. destruct r as [|c r]; [reflexivity|]. cbn [span]. rewrite C. reflexivity.
  - apply Forall_cons_iff in D. destruct D as [D1 D2]. cbn [map app span]. rewrite digit_ten by exact D1. rewrite IH by assumption. reflexivity.
Qed.
Lemma ten : forall n, 0 <= n <= int_max -> is_digits 10 (digs 10 n) /\ digs 10 n <> [] /\ fold_left (fun n d => n * 10 + d) (digs 10 n) 0 = n /\ (0 < n -> hd 0 (digs 10 n) <> 0) /\ n < 2 ^ 64.
Proof.
  intros n H. destruct (digs_ok 10 n ltac:(lia) ltac:(lia)) as (W & D & NE & HD & _). split; [exact D|]. split; [exact NE|]. split; [exact W|]. split; [intros Z0; apply HD; lia|].
  unfold int_max in H. change (2 ^ 64) with 18446744073709551616. lia.
Qed.
Lemma good_num_range : forall n, good_num n = true -> 0 < n <= int_max.
Proof. intros n H. unfold good_num in H. apply andb_prop in H. destruct H as [A B]. apply Z.ltb_lt in A. apply Z.leb_le in B. lia. Qed.
(** The first digit of a number that is not zero. *)
Lemma first_digit : forall n, 0 < n <= int_max -> exists c r, decimal n = c :: r /\ digit c = true /\ c <> 48.
Proof.
  intros n H. destruct (ten n ltac:(lia)) as (D & NE & _ & HD & _). specialize (HD ltac:(lia)). unfold decimal, numeral. destruct (digs 10 n) as [|d l]; [contradiction|].
  apply Forall_cons_iff in D. destruct D as [D _]. cbn [hd] in HD. exists (dchar false d), (map (dchar false) l). split; [reflexivity|]. split; [apply digit_ten; exact D|]. rewrite dchar_ten by exact D. lia.
Qed.
Lemma positional_ok : forall n r, 0 < n <= int_max -> positional (decimal n ++ 36 :: r) = Some (n, r).
Proof.
  intros n r H. destruct (first_digit n H) as (c & t & E & DC & NZ). destruct (ten n ltac:(lia)) as (D & NE & W & _ & B).
  assert (positional (decimal n ++ 36 :: r) = match span (decimal n ++ 36 :: r) with (ds, 36 :: r) => Some (wrapped ds, r) | _ => None end) as ->.
  { unfold positional. rewrite E. cbn [app]. rewrite DC. destruct (Z.eqb_spec c 48); [contradiction|]. reflexivity. }
  unfold decimal, numeral. rewrite span_gen by (try exact D; reflexivity). unfold wrapped. rewrite wrapped_gen; [rewrite W; reflexivity|exact D|lia|rewrite W; exact B].
Qed.
Lemma positional_num : forall n c r, 0 < n <= int_max -> digit c = false -> c <> 36 -> positional (decimal n ++ c :: r) = None.
Proof.
  intros n c r H C N. destruct (first_digit n H) as (q & t & E & DC & NZ). destruct (ten n ltac:(lia)) as (D & NE & W & _ & B).
  assert (positional (decimal n ++ c :: r) = match span (decimal n ++ c :: r) with (ds, 36 :: r) => Some (wrapped ds, r) | _ => None end) as ->.
  { unfold positional. rewrite E. cbn [app]. rewrite DC. destruct (Z.eqb_spec q 48); [contradiction|]. reflexivity. }
  unfold decimal, numeral. rewrite span_gen by (try exact D; exact C). clear - N. bits c.
Qed.
Lemma positional_none : forall c r, digit c = false \/ c = 48 -> positional (c :: r) = None.
Proof. intros c r [H|H]; unfold positional; [rewrite H; reflexivity|rewrite H; reflexivity]. Qed.

(** A conversion is none of the other signs. *)
Lemma conversion_char : forall c, conversion c = true -> digit c = false /\ c <> 36 /\ c <> 42 /\ c <> 46 /\ c <> 37 /\ forall f, flag c f = None.
Proof.
  intros c H. unfold conversion in H. cbn [existsb] in H.
  repeat (apply orb_prop in H; destruct H as [H|H]; [apply Z.eqb_eq in H; subst c; repeat split; try discriminate; try reflexivity|]). discriminate H.
Qed.
Lemma digit_flag : forall c f, digit c = true -> c <> 48 -> flag c f = None.
Proof.
  intros c f H N. unfold digit in H. apply andb_prop in H. destruct H as [A B]. apply Z.leb_le in A, B. unfold flag.
  assert (c = 49 \/ c = 50 \/ c = 51 \/ c = 52 \/ c = 53 \/ c = 54 \/ c = 55 \/ c = 56 \/ c = 57) as Q by lia.
  repeat (destruct Q as [->|Q]; [reflexivity|]). subst c. reflexivity.
Qed.
Definition with_flags (f : flags) (l : list Z) : flags :=
  let h c := existsb (Z.eqb c) l in mkFl (zero f || h 48) (minus f || h 45) (plus f || h 43) (space f || h 32) (sharp f || h 35).
Lemma read_flags_ok : forall l f c r, forallb good_flag l = true -> (forall f, flag c f = None) -> read_flags (l ++ c :: r) f = Some (with_flags f l, c :: r).
Proof.
  induction l as [|x l IH]; intros f c r G N.
  - cbn [app read_flags]. rewrite N. unfold with_flags. cbn [existsb]. rewrite !orb_false_r. destruct f; reflexivity.
  - cbn [forallb] in G. apply andb_prop in G. destruct G as [G1 G2]. cbn [app read_flags]. unfold good_flag in G1. cbn [existsb] in G1.
    repeat (apply orb_prop in G1; destruct G1 as [G1|G1]; [apply Z.eqb_eq in G1; subst x; cbn [flag]; rewrite IH by assumption; unfold with_flags; cbn [zero minus plus space sharp existsb];
      change (48 =? 48) with true; cbn [Z.eqb Pos.eqb]; rewrite ?orb_true_r, ?orb_false_l; cbn [orb]; reflexivity|]). discriminate G1.
Qed.

Section Reading.
Variable value : Type.
Variable star : value -> option Z.
Variable convert : Z -> flags -> Z -> option Z -> value -> out.
Definition args_of (m : mode) : args := match m with Free => mkA 0 false false | Seq k => mkA k false true | Num => mkA 0 true false end.
Definition mapped (g : option (value * mode)) : option (value * args) := match g with Some (v, m) => Some (v, args_of m) | None => None end.
Lemma nth_ok : forall vs m n, 0 < n -> take_nth value vs (args_of m) n = mapped (get value vs m (Some n)).
Proof.
  intros vs m n H. unfold take_nth, get. destruct (Z.eqb_spec n 0); [lia|]. cbn [orb].
  assert ((len vs <? n) = true -> nth_error vs (Z.to_nat (n - 1)) = None) as Q by (intros L; apply Z.ltb_lt in L; apply nth_error_None; unfold len in L; lia).
  destruct m as [|k|]; cbn [args_of unnumbered next]; [|reflexivity|]; (destruct (len vs <? n); [rewrite Q by reflexivity; reflexivity|]; destruct (nth_error vs (Z.to_nat (n - 1))); reflexivity).
Qed.
Lemma next_ok : forall vs m, take_next value vs (args_of m) = mapped (get value vs m None).
Proof.
  intros vs m. unfold take_next, get. destruct m as [|k|]; cbn [args_of numbered next]; [|destruct (nth_error vs k); reflexivity|reflexivity]. destruct vs; reflexivity.
Qed.
(** A star. *)
Definition starred (vs : list value) (m : mode) (n : option Z) (rest : text) : option (Z * args * text) :=
  match get value vs m n with
  | Some (v, m) => match star v with Some z => if fixnum z then Some (z, args_of m, rest) else None | None => None end
  | None => None
  end.
Lemma star_next : forall vs m c r, digit c = false -> read_star value star vs (args_of m) (c :: r) = starred vs m None (c :: r).
Proof.
  intros vs m c r C. unfold read_star, starred. rewrite positional_none by (left; exact C). rewrite next_ok. unfold mapped. destruct (get value vs m None) as [[v m']|]; [|reflexivity].
  destruct (star v); reflexivity.
Qed.
Lemma star_nth : forall vs m n c r, 0 < n <= int_max -> read_star value star vs (args_of m) ((decimal n ++ [36]) ++ c :: r) = starred vs m (Some n) (c :: r).
Proof.
  intros vs m n c r H. unfold read_star, starred. rewrite <- app_assoc. cbn [app]. rewrite positional_ok by exact H. rewrite nth_ok by lia. unfold mapped.
  destruct (get value vs m (Some n)) as [[v m']|]; [|reflexivity]. destruct (star v); reflexivity.
Qed.
Lemma int_fixnum : forall z, (- int_max <=? z) && (z <=? int_max) = true -> fixnum z = true.
Proof.
  intros z H. apply andb_prop in H. destruct H as [A B]. apply Z.leb_le in A, B. unfold int_max in *. unfold fixnum. change (2 ^ 62) with 4611686018427387904.
  apply andb_true_intro. split; [apply Z.leb_le|apply Z.ltb_lt]; lia.
Qed.
Definition turned (f : flags) (w : Z) : flags := if w <? 0 then mkFl false true (plus f) (space f) (sharp f) else f.
Lemma width_read : forall vs m f a c r, good_amount a false = true -> (digit c = false \/ exists n, a = ANth n) -> c <> 42 ->
  match amount_of value star vs m a with
  | GRange => True
  | GErr => read_width value star vs (args_of m) f (amount_text a ++ c :: r) = None
  | GNum w m' => read_width value star vs (args_of m) f (amount_text a ++ c :: r) = Some (Z.abs (or_zero w), turned f (or_zero w), args_of m', c :: r)
  end.
Proof.
  intros vs m f a c r G C N.
  assert (forall n rest, read_star value star vs (args_of m) rest = starred vs m n (c :: r) -> 
    match match get value vs m n with
          | Some (v, m) => match star v with Some z => if (- int_max <=? z) && (z <=? int_max) then GNum (Some z) m else GRange | None => GErr end
          | None => GErr end with
    | GRange => True
    | GErr => read_width value star vs (args_of m) f (42 :: rest) = None
    | GNum w m' => read_width value star vs (args_of m) f (42 :: rest) = Some (Z.abs (or_zero w), turned f (or_zero w), args_of m', c :: r)
    end) as Q.
  { intros n rest E. unfold read_width. rewrite E. unfold starred. destruct (get value vs m n) as [[v m']|]; [|reflexivity]. destruct (star v) as [z|]; [|reflexivity].
    destruct ((- int_max <=? z) && (z <=? int_max)) eqn:IR; [|exact I]. rewrite (int_fixnum z IR). cbn [or_zero]. unfold turned.
    destruct (Z.ltb_spec z 0); [rewrite Z.abs_neq by lia|rewrite Z.abs_eq by lia]; reflexivity. }
  assert (forall l, (match l with 42 :: _ => False | _ => True end) -> read_width value star vs (args_of m) f l = match read_num l 0 with Some (n, r) => Some (n, f, args_of m, r) | None => None end) as Q2.
  { intros l H. unfold read_width. destruct l as [|x l]; [reflexivity|]. clear - H. bits x. }
  assert (match a with ANth _ => True | _ => digit c = false end) as C2 by (destruct C as [C|[k ->]]; [destruct a; try exact C; exact I|exact I]).
  clear C. rename C2 into C. destruct a as [|n| |n]; cbn [amount_of amount_text app].
  - rewrite Q2 by (clear - N; bits c). cbn [read_num]. rewrite C. reflexivity.
  - cbn [good_amount andb] in G. rewrite orb_false_r in G. apply good_num_range in G. destruct (first_digit n G) as (q & t & E & DC & NZ).
    rewrite Q2 by (rewrite E; cbn [app]; clear - DC; bits q). destruct (ten n ltac:(lia)) as (D & _ & W & _ & B). unfold decimal, numeral.
    rewrite read_num_gen; [|exact D|lia|exact C|rewrite W; exact B]. rewrite W. cbn [or_zero]. unfold turned. destruct (Z.ltb_spec n 0); [lia|]. rewrite Z.abs_eq by lia. reflexivity.
  - apply (Q None). apply star_next. exact C.
  - apply (Q (Some n)). cbn [good_amount] in G. apply star_nth. apply good_num_range; exact G.
Qed.
Definition prec_text (p : option amount) : text := match p with Some a => 46 :: amount_text a | None => [] end.
Definition prec_value (vs : list value) (m : mode) (p : option amount) : got := match p with Some a => amount_of value star vs m a | None => GNum None m end.
Definition prec_num (p : option amount) (z : option Z) : option Z := match p with None => None | Some _ => if or_zero z <? 0 then None else Some (or_zero z) end.
Lemma prec_read : forall vs m p c r, match p with Some a => good_amount a true = true | None => True end -> (digit c = false \/ exists n, p = Some (ANth n) \/ p = None) -> c <> 42 -> c <> 46 ->
  match prec_value vs m p with
  | GRange => True
  | GErr => read_prec value star vs (args_of m) (prec_text p ++ c :: r) = None
  | GNum w m' => read_prec value star vs (args_of m) (prec_text p ++ c :: r) = Some (prec_num p w, args_of m', c :: r)
  end.
Proof.
  intros vs m p c r G C N N2. destruct p as [a|]; cbn [prec_value prec_text prec_num].
  2:{ cbn [app]. unfold read_prec. clear - N2. bits c. }
  assert (forall n rest, read_star value star vs (args_of m) rest = starred vs m n (c :: r) -> 
    match match get value vs m n with
          | Some (v, m) => match star v with Some z => if (- int_max <=? z) && (z <=? int_max) then GNum (Some z) m else GRange | None => GErr end
          | None => GErr end with
    | GRange => True
    | GErr => read_prec value star vs (args_of m) (46 :: 42 :: rest) = None
    | GNum w m' => read_prec value star vs (args_of m) (46 :: 42 :: rest) = Some (if or_zero w <? 0 then None else Some (or_zero w), args_of m', c :: r)
    end) as Q.
  { intros n rest E. unfold read_prec. rewrite E. unfold starred. destruct (get value vs m n) as [[v m']|]; [|reflexivity]. destruct (star v) as [z|]; [|reflexivity].
    destruct ((- int_max <=? z) && (z <=? int_max)) eqn:IR; [|exact I]. rewrite (int_fixnum z IR). reflexivity. }
  assert (forall l, (match l with 42 :: _ => False | _ => True end) -> read_prec value star vs (args_of m) (46 :: l) = match read_num l 0 with Some (n, r) => Some (Some n, args_of m, r) | None => None end) as Q2.
  { intros l H. unfold read_prec. destruct l as [|x l]; [reflexivity|]. clear - H. bits x. }
  assert (match a with ANth _ => True | _ => digit c = false end) as C2 by (destruct C as [C|[k [C|C]]]; [destruct a; try exact C; exact I|injection C as ->; exact I|discriminate C]).
  clear C. rename C2 into C. destruct a as [|n| |n]; cbn [amount_of amount_text app].
  - rewrite Q2 by (clear - N; bits c). cbn [read_num]. rewrite C. reflexivity.
  - cbn [good_amount andb] in G. assert (0 <= n <= int_max) as GN.
    { apply orb_prop in G. destruct G as [G|G]; [apply good_num_range in G; lia|]. apply Z.eqb_eq in G. subst n. unfold int_max. lia. }
    destruct (ten n GN) as (D & NE & W & _ & B). unfold decimal, numeral. rewrite Q2.
    + rewrite read_num_gen; [|exact D|lia|exact C|rewrite W; exact B]. rewrite W. cbn [or_zero]. destruct (Z.ltb_spec n 0); [lia|]. reflexivity.
    + destruct (digs 10 n) as [|d l]; [contradiction|]. apply Forall_cons_iff in D. destruct D as [D _]. cbn [map app]. pose proof (digit_ten d D) as DT. clear - DT. set (q := dchar false d) in *. clearbody q. bits q.
  - apply (Q None). apply star_next. exact C.
  - apply (Q (Some n)). cbn [good_amount] in G. apply star_nth. apply good_num_range; exact G.
Qed.
End Reading.
