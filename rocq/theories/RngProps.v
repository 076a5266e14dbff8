(** C15, C46, C47: random numbers, shuffle and sample. *)
From Coq Require Import ZArith List Bool Lia Permutation Floats.SpecFloat.
From Verif Require Import RngSpec RngModel RngProofs.
Import ListNotations.
Open Scope Z_scope.

(** *** C15 *)
(** rand(max): whatever the source of words, whenever a value is returned it is
    in [0, max).  Missing: the retry loop ends for the concrete twister (it is
    random rejection; see C15_rejection_exact for when a pass succeeds). *)
Theorem C15_rand_in_range_partial (G : Type) (next : G -> Z * G) n max g cnt x g' cnt' :
  0 < max -> rand_int G next n max g cnt = Some (x, g', cnt') -> 0 <= x < max.
Proof. exact (rand_int_range G next n max g cnt x g' cnt'). Qed.
Print Assumptions C15_rand_in_range_partial.
(** The draw used by shuffle, sample and small Kernel#rand limits. *)
Theorem C15_draw_in_range_partial (G : Type) (next : G -> Z * G) n max g cnt x g' cnt' :
  0 <= max < 2 ^ 64 -> ulong_limited G next n max g cnt = Some (x, g', cnt') -> 0 <= x <= max.
Proof. exact (ulong_range G next n max g cnt x g' cnt'). Qed.
Print Assumptions C15_draw_in_range_partial.
(** A pass is unbiased: it reads [k] words as one number, keeps its low [b] bits
    and accepts exactly when they are below [max]; [b] is the smallest number of
    bits that holds max - 1. *)
Theorem C15_rejection_exact max : 0 < max ->
  exists (k : nat) (b : Z), 0 <= b <= 32 * Z.of_nat k /\ max <= 2 ^ b /\ (b = 0 \/ 2 ^ (b - 1) < max) /\
  forall ws rest, Forall u32 ws -> length ws = k ->
    rand_int (list Z) serve 1 max (ws ++ rest) 0 =
      if number ws mod 2 ^ b <? max then Some (number ws mod 2 ^ b, rest, Z.of_nat k) else None.
Proof. exact (rejection_exact max). Qed.
Print Assumptions C15_rejection_exact.
(** Floats: k * 2^-53 with 0 <= k < 2^53, or <= 2^53 for the inclusive mapping;
    from every seed and after every number of words. *)
Theorem C15_float_in_range seed cnt c0 :
  let g := mt_at seed cnt in
  (let '(k, _, _) := next_real mt next_u32 g c0 in 0 <= k < 2 ^ 53)
  /\ (let '(k, _) := next_real_inclusive mt next_u32 g in 0 <= k <= 2 ^ 53).
Proof.
  intro g. assert (hg : good g) by (apply skip_good, build_good).
  destruct (next_real mt next_u32 g c0) as [[k g'] c'] eqn:E. destruct (next_real_inclusive mt next_u32 g) as [k2 g2] eqn:E2.
  split; [exact (proj1 (next_real_range _ _ _ _ _ hg E))|exact (proj1 (next_real_inclusive_range _ _ _ hg E2))].
Qed.
Print Assumptions C15_float_in_range.
(** A Random keeps only its seed and a word count and replays the twister, yet
    every history of calls answers what one live generator answers. *)
Theorem C15_reproducible n cs seed l g cnt : cnt < 2 ^ 62 ->
  live (mt * Z) call answer (live_step n) cs (build_mt seed, 0) = Some (l, (g, cnt)) ->
  inst_run n cs (mkrandom seed 0) = Some (l, mkrandom seed cnt).
Proof. intros h1 h2. exact (proj2 (proj2 (replay n cs seed (build_mt seed) 0 l g cnt (Z.le_refl 0) eq_refl h1 h2))). Qed.
Print Assumptions C15_reproducible.
(** Not so when converting the argument uses the same generator: the state was
    loaded before, so the inner draw is drawn again and then forgotten. *)
Theorem C15_nested_refuted : exists n seed m x y z g r',
  inst_nested n [RandI m] m (mkrandom seed 0) = Some ([x], y, r') /\
  live (mt * Z) call answer (live_step n) [RandI m; RandI m] (build_mt seed, 0) = Some ([x; z], g) /\
  y <> z /\ y = x /\ snd g <> r_cnt r'.
Proof.
  exists 20%nat, 42, 100, (AInt 51), (AInt 51), (AInt 92).
  assert (H1 : inst_nested 20 [RandI 100] 100 (mkrandom 42 0) = Some ([AInt 51], AInt 51, mkrandom 42 2)) by (vm_compute; reflexivity).
  destruct (live (mt * Z) call answer (live_step 20) [RandI 100; RandI 100] (build_mt 42, 0)) as [[l g]|] eqn:L.
  2: { exfalso. revert L. vm_compute. discriminate. }
  assert (H2 : match live (mt * Z) call answer (live_step 20) [RandI 100; RandI 100] (build_mt 42, 0) with
               | Some (l, g) => (l, snd g) | None => ([], 0) end = ([AInt 51; AInt 92], 3)) by (vm_compute; reflexivity).
  rewrite L in H2. injection H2 as -> e. exists g, (mkrandom 42 2).
  split; [exact H1|]. split; [reflexivity|]. split; [discriminate|]. split; [reflexivity|]. rewrite e. discriminate.
Qed.
Print Assumptions C15_nested_refuted.

(** shuffle: for every generator that stays below the requested limit and leaves
    the array alone, the result is a permutation - also when a draw raises. *)
Theorem C15_shuffle_permutation (A St : Type) (draw : nat -> St -> list A -> option nat * St * list A) reenters s l :
  (forall m s l j s' l', (0 < m <= length l)%nat -> draw m s l = (Some j, s', l') -> (j < m)%nat) ->
  (forall m s l r s' l', draw m s l = (r, s', l') -> l' = l) ->
  exists o s' l', shuffle A St draw reenters s l = (o, s', l') /\ Permutation l l' /\ (o = Done \/ o = Raised).
Proof. exact (shuffle_perm A St draw reenters s l). Qed.
Print Assumptions C15_shuffle_permutation.
(** The twister meets those hypotheses. *)
Theorem C15_twister_draws (A : Type) n m g (l : list A) r g' l' : Z.of_nat m <= 2 ^ 64 -> (0 < m)%nat -> twister_draw A n m g l = (r, g', l') ->
  l' = l /\ (forall j, r = Some j -> (j < m)%nat).
Proof.
  intros h0 h1 h. split; [exact (twister_draw_same A n m g l r g' l' h)|]. intros j ->. exact (twister_draw_below A n m g l j g' l' h0 h1 h).
Qed.
Print Assumptions C15_twister_draws.
(** Every arrangement of the array is produced by some draws in range. *)
Theorem C15_shuffle_reaches_all (A : Type) (l l' : list A) : Permutation l l' ->
  exists js, Forall2 lt js (map (fun k => (length l - k)%nat) (seq 0 (length l - 1))) /\
    shuffle A (list nat) (feed A) false js l = (Done, [], l').
Proof. exact (shuffle_onto A l l'). Qed.
Print Assumptions C15_shuffle_reaches_all.
(** A duck-typed generator may do anything to the array between draws: no access
    is out of bounds. *)
Theorem C15_shuffle_safe (A St : Type) (draw : nat -> St -> list A -> option nat * St * list A) s l :
  (forall m s l j s' l', (0 < m <= length l)%nat -> draw m s l = (Some j, s', l') -> (j < m)%nat) ->
  fst (fst (shuffle A St draw true s l)) <> OutOfBounds.
Proof. intro h. exact (shuffle_loop_safe A St draw h (length l) (length l) s l eq_refl (le_n _)). Qed.
Print Assumptions C15_shuffle_safe.

(** Reference vectors of the published generator: seed 5489 and the four-word key. *)
Example C15_reference_vectors :
  fst (next_u32 (build_mt 5489)) = 3499211612 /\ fst (next_u32 (new_with_key [291; 564; 837; 1110])) = 1067595299
  /\ fst (next_u32 (skip (Z.to_nat 9999) (init_genrand 5489))) = 4123659995.
Proof. split; [|split]; (vm_compute; reflexivity). Qed.
Example C15_example :
  rand_int mt next_u32 10 100 (build_mt 42) 0 <> None /\ (option_map fst (inst_run 20 [RandI 100; RandR 5 4 false; RandR (-4) 3 true; Bytes 5; RandI 0; Upto [2; 3; 1]] (mkrandom 42 0))) = Some [AInt 51; ANil; AInt 0; ABytes [14; 149; 245; 46; 106]; AErr; AIdx [0; 0; 0]]
  /\ shuffle Z (list nat) (feed Z) false [0; 1; 0]%nat [10; 20; 30; 40] = (Done, [], [30; 40; 20; 10]).
Proof. vm_compute. repeat split; discriminate. Qed.

(** *** C46: rand(range) *)
(** Kernel#rand(a..b) on Integers, in range and nil only for an empty range, as
    long as the range has fewer than 2^63 elements. *)
Theorem C46_kernel_range_partial (G : Type) (next : G -> Z * G) n s e (excl : bool) g cnt r g' cnt' :
  fixnum s = true -> fixnum e = true -> e - s + (if excl then 0 else 1) < 2 ^ 63 ->
  kernel_range G next n s e excl g cnt = Some (r, g', cnt') ->
  match r with
  | Some x => s <= x /\ (if excl then x < e else x <= e)
  | None => if excl then e <= s else e < s
  end.
Proof. exact (kernel_range_ok G next n s e excl g cnt r g' cnt'). Qed.
Print Assumptions C46_kernel_range_partial.
Theorem C46_random_range_partial (G : Type) (next : G -> Z * G) n s e (excl : bool) g cnt r g' cnt' :
  fixnum s = true -> fixnum e = true -> e - s + (if excl then 0 else 1) < 2 ^ 63 ->
  random_range G next n s e excl g cnt = Some (r, g', cnt') ->
  match r with
  | Some x => s <= x /\ (if excl then x < e else x <= e)
  | None => if excl then e <= s else e < s
  end.
Proof. exact (random_range_ok G next n s e excl g cnt r g' cnt'). Qed.
Print Assumptions C46_random_range_partial.
(** rand(-2**62..2**62-1) is nil, whatever the generator: the size overflows. *)
Theorem C46_full_range_refuted : exists s e, fixnum s = true /\ fixnum e = true /\ s <= e /\
  forall (G : Type) (next : G -> Z * G) n g cnt,
    kernel_range G next n s e false g cnt = Some (None, g, cnt) /\ random_range G next n s e false g cnt = Some (None, g, cnt).
Proof. exists (- 2 ^ 62), (2 ^ 62 - 1). repeat split; reflexivity || discriminate. Qed.
Print Assumptions C46_full_range_refuted.
(** Random#rand(-2**62..2**62-2) never returns a non-negative number. *)
Theorem C46_unreachable_refuted : exists s e, fixnum s = true /\ fixnum e = true /\ s <= 0 <= e /\
  forall (G : Type) (next : G -> Z * G) n g cnt x g' cnt', random_range G next n s e false g cnt = Some (Some x, g', cnt') -> x < 0.
Proof.
  exists (- 2 ^ 62), (2 ^ 62 - 2). repeat split; try reflexivity; try discriminate.
  intros G next n g cnt x g' cnt'. exact (random_range_low G next n g cnt x g' cnt').
Qed.
Print Assumptions C46_unreachable_refuted.
(** rand(-1.0e308..1.0e308) is never a finite number: the width overflows. *)
Theorem C46_float_overflow_refuted : exists s e, SFltb s e = true /\ is_finite_sf s = true /\ is_finite_sf e = true /\
  forall (G : Type) (next : G -> Z * G) excl g, match fst (kernel_float_range G next s e excl g) with
                                            | Some x => is_finite_sf x = false
                                            | None => False
                                            end.
Proof. exact float_range_overflow. Qed.
Print Assumptions C46_float_overflow_refuted.
(** srand(5489); rand(1.0...1.0.next_float) returns the excluded end. *)
Theorem C46_float_excluded_end_refuted : exists s e, SFltb s e = true /\
  fst (kernel_float_range mt next_u32 s e true (build_mt 5489)) = Some e.
Proof.
  exists (S754_finite false 4503599627370496 (-52)), (S754_finite false 4503599627370497 (-52)).
  split; [vm_compute; reflexivity|]. vm_compute. reflexivity.
Qed.
Print Assumptions C46_float_excluded_end_refuted.
Example C46_example :
  match kernel_range mt next_u32 10 (-5) 5 true (build_mt 1) 0 with Some (Some x, _, c) => (-5 <=? x) && (x <? 5) && (0 <? c) | _ => false end = true.
Proof. vm_compute. reflexivity. Qed.

(** *** C47: sample *)
(** For every generator that returns draws in range and leaves the array alone:
    min(n, length) elements at pairwise distinct positions. *)
Theorem C47_sample_distinct_partial (A St : Type) (draw : nat -> St -> list A -> option nat * St * list A) n s l :
  (forall m s l, (0 < m <= length l)%nat -> exists j s', draw m s l = (Some j, s', l) /\ (j < m)%nat) ->
  exists r, sample A St draw n s l = Picked A r /\ selection l (Nat.min n (length l)) r.
Proof. intro h. exact (sample_ok A St draw h n s l). Qed.
Print Assumptions C47_sample_distinct_partial.
(** A generator that answers in range but shortens the array meanwhile makes
    sample(2) index out of bounds (a panic). *)
Definition shrinking (m : nat) (s : list nat) (l : list Z) : option nat * list nat * list Z :=
  match s with
  | [j] => (Some j, [], firstn 3 l)
  | j :: t => (Some j, t, l)
  | [] => (Some O, [], l)
  end.
Theorem C47_shrinking_refuted : exists s l, (forall m, In m [5; 4]%nat -> forall s0 l0 r s1 l1, incl s0 s -> shrinking m s0 l0 = (r, s1, l1) -> exists j, r = Some j /\ (j < m)%nat) /\
  sample Z (list nat) shrinking 2 s l = POutOfBounds Z.
Proof.
  exists [0; 2]%nat, [1; 2; 3; 4; 5]. split; [|reflexivity].
  intros m hm s0 l0 r s1 l1 hi h.
  assert (hj : forall j, In j s0 -> (j < m)%nat).
  { intros j hj. apply hi in hj. cbn in hm, hj. lia. }
  destruct s0 as [|j [|j2 t]]; cbn in h; inversion h; subst; eexists; (split; [reflexivity|]); try (apply hj; cbn; auto; fail). destruct hm as [<-|[<-|[]]]; lia.
Qed.
Print Assumptions C47_shrinking_refuted.
(** Five of six, and twelve of thirteen. *)
Example C47_example :
  sample Z (list nat) (feed Z) 5 [2; 2; 2; 2; 0]%nat [10; 20; 30; 40; 50; 60] = Picked Z [30; 40; 50; 60; 10]
  /\ sample Z (list nat) (feed Z) 12 [12; 0; 10; 9; 8; 7; 6; 5; 4; 3; 2; 1]%nat [0; 1; 2; 3; 4; 5; 6; 7; 8; 9; 10; 11; 12]
     = Picked Z [12; 1; 0; 2; 3; 4; 5; 6; 7; 8; 9; 10].
Proof. vm_compute. repeat split. Qed.
