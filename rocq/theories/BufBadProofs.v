From Coq Require Import List Bool ZArith Arith Lia.
From Verif Require Import BufModel BufSpec BufProofs BufHist BufTyped.
Import ListNotations.

Lemma make ss l : reached (run (mkW ss []) l).
Proof. exists ss, l. reflexivity. Qed.
Definition shrunk : list op := [New 8 false; SliceOf 0 4 (Some 4%Z); Resize 0 4].
Lemma panics : ~ forall w o, reached w -> snd (step w o) <> Panic.
Proof. intros H. specialize (H (run (mkW [] []) shrunk) (SetValue 1 1 Unsigned false 0 1) (make _ _)). apply H. vm_compute. reflexivity. Qed.
Lemma clear_panics : ~ forall w i v off len, reached w -> snd (step w (Clear i v off len)) <> Panic.
Proof. intros H. specialize (H (run (mkW [] []) shrunk) 1 0%Z 0%Z None (make _ _)). apply H. vm_compute. reflexivity. Qed.
Lemma freed_write : ~ forall w i n k big off v a, reached w -> snd (step w (SetValue i n k big off v)) = Val a -> readable w i.
Proof.
  intros H. specialize (H (run (mkW [] []) [New 8 false; SliceOf 0 4 (Some 4%Z); Free 0]) 1 1 Unsigned false 0%Z 7%Z (AInt 1) (make _ _)).
  apply H; [vm_compute; reflexivity|]. vm_compute. reflexivity.
Qed.
Lemma middle : ~ forall w i j k b c d o q, reached w -> get (bufs w) i = Some b -> get (bufs w) j = Some c -> get (bufs w) k = Some d ->
  sto c = Slice i o -> sto d = Slice j q -> readable w k -> locked c = false -> readable (fst (step w (Free j))) k.
Proof.
  intros H. specialize (H (run (mkW [] []) [New 8 false; SliceOf 0 0 None; SliceOf 1 0 None]) 0 1 2 (owned [0;0;0;0;0;0;0;0]%Z false false) (mkB (Slice 0 0) 8 false false false) (mkB (Slice 1 0) 8 false false false) 0 0 (make _ _)).
  apply H; try (vm_compute; reflexivity). vm_compute. discriminate.
Qed.
Lemma dup_alias : ~ forall w i j l n k big off v, reached w -> snd (step w (Dup i)) = Val (ABuf j) -> read (strs w) (bufs w) i = Some l ->
  let w' := fst (step (fst (step w (Dup i))) (SetValue j n k big off v)) in read (strs w') (bufs w') i = Some l.
Proof.
  intros H. specialize (H (run (mkW [] []) [New 2 false; SliceOf 0 0 None]) 1 2 [0; 0]%Z 1 Unsigned false 0%Z 9%Z (make _ _) eq_refl eq_refl). vm_compute in H. discriminate H.
Qed.
Lemma dup_locked : ~ forall w i j, reached w -> snd (step w (Dup i)) = Val (ABuf j) -> exists b, get (bufs (fst (step w (Dup i)))) j = Some b /\ locked b = false.
Proof.
  intros H. specialize (H (run (mkW [] []) [New 2 false; Lock 0]) 0 1 (make _ _) eq_refl). destruct H as (b & G & L). vm_compute in G. injection G as <-. discriminate L.
Qed.
Lemma dup_readonly : ~ forall w i j, reached w -> snd (step w (Dup i)) = Val (ABuf j) -> exists b, get (bufs (fst (step w (Dup i)))) j = Some b /\ ro b = false.
Proof.
  intros H. specialize (H (run (mkW [[65; 66]%Z] []) [For 0]) 0 1 (make _ _) eq_refl). destruct H as (b & G & L). vm_compute in G. injection G as <-. discriminate L.
Qed.
Local Open Scope Z_scope.
Lemma negative_get : ~ forall w i n k big off, reached w -> off < 0 -> snd (step w (GetValue i n k big off)) = Err.
Proof. intros H. specialize (H (run (mkW [] []) [New 2 false]) 0%nat 1%nat Unsigned false (-1) (make _ _) eq_refl). vm_compute in H. discriminate H. Qed.
Lemma negative_set : ~ forall w i n k big off v, reached w -> off < 0 -> step w (SetValue i n k big off v) = (w, Err).
Proof. intros H. specialize (H (run (mkW [] []) [New 2 false]) 0%nat 1%nat Unsigned false (-1) 5 (make _ _) eq_refl). vm_compute in H. discriminate H. Qed.
Lemma big_unsigned : ~ forall w i b l n big o v, reached w -> get (bufs w) i = Some b -> ro b = false -> read (strs w) (bufs w) i = Some l -> (o + n <= length l)%nat -> 0 <= v < 2 ^ (8 * Z.of_nat n) ->
  snd (step w (SetValue i n Unsigned big (Z.of_nat o) v)) <> Err.
Proof.
  intros H. specialize (H (run (mkW [] []) [New 8 false]) 0%nat (owned [0;0;0;0;0;0;0;0] false false) [0;0;0;0;0;0;0;0] 8%nat false 0%nat (2 ^ 63) (make _ _) eq_refl eq_refl eq_refl (le_n 8)).
  apply H; [split; [discriminate|reflexivity]|]. vm_compute. reflexivity.
Qed.
Lemma count_short : ~ forall w i l n k big c, reached w -> read (strs w) (bufs w) i = Some l -> Z.of_nat (length l) < c * Z.of_nat n -> snd (step w (Values i n k big 0 (Some c))) = Err.
Proof.
  intros H. specialize (H (run (mkW [] []) [New 2 false]) 0%nat [0; 0] 1%nat Unsigned false 3 (make _ _) eq_refl eq_refl). vm_compute in H. discriminate H.
Qed.
Lemma order_bad : ~ forall w i j a b, reached w -> read (strs w) (bufs w) i = Some a -> read (strs w) (bufs w) j = Some b -> snd (step w (Compare i j)) = Val (AInt (ruby_order a b)).
Proof.
  intros H. specialize (H (run (mkW [[66]; [65; 65]] []) [For 0; For 1]) 0%nat 1%nat [66] [65; 65] (make _ _) eq_refl eq_refl). vm_compute in H. discriminate H.
Qed.
Lemma smears : ~ forall w i b s l, reached w -> get (bufs w) i = Some b -> sto b = Str s 0 -> ro b = false -> nth_error (strs w) s = Some l -> (2 <= length l)%nat -> size b = length l ->
  nth_error (strs (fst (step w (SetString i (Same s) 1 0 (Some (Z.of_nat (length l) - 1)))))) s = Some (moved l 1 (firstn (length l - 1) l)).
Proof.
  intros H. specialize (H (run (mkW [[65; 66; 67; 68]] []) [ForBegin 0 false]) 0%nat (mkB (Str 0 0) 4 false false false) 0%nat [65; 66; 67; 68] (make _ _) eq_refl eq_refl eq_refl eq_refl ltac:(cbn; lia) eq_refl).
  vm_compute in H. discriminate H.
Qed.
