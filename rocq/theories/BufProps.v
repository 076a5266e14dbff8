From Coq Require Import List Bool ZArith Arith.
From Verif Require Import BufModel BufSpec BufProofs BufHist BufTyped BufBadProofs.
Import ListNotations.

(** C115. What a readable buffer shows is, byte by byte, what lies at the place of the byte, and its length is the size. *)
Theorem C115_reading w i l : reached w -> read (strs w) (bufs w) i = Some l ->
  exists b, get (bufs w) i = Some b /\ length l = size b /\ forall x, x < size b -> nth_error l x = match place (bufs w) i x with Some (c, y) => content (strs w) (bufs w) c y | None => None end.
Proof. exact (read_bytes_ok w i l). Qed.
Example C115_reading_example : reached (run (mkW [[65; 66; 67; 68]%Z] []) [ForBegin 0 false; SliceOf 0 1 None; SliceOf 1 1 None])
  /\ (let w := run (mkW [[65; 66; 67; 68]%Z] []) [ForBegin 0 false; SliceOf 0 1 None; SliceOf 1 1 None] in
      snd (step w (GetString 2 0 None)) = Val (ABytes [67; 68]%Z) /\ place (bufs w) 2 1 = Some (Text 0, 3)).
Proof. split; [exists [[65; 66; 67; 68]%Z], [ForBegin 0 false; SliceOf 0 1 None; SliceOf 1 1 None]; reflexivity|]. split; reflexivity. Qed.
Print Assumptions C115_reading.

(** A slice shares its places with the buffer it is cut from, at the offset, and shows that part of it; nothing else moves. *)
Theorem C115_slice w i b off len j : reached w -> get (bufs w) i = Some b -> snd (step w (SliceOf i off len)) = Val (ABuf j) ->
  let w' := fst (step w (SliceOf i off len)) in j = length (bufs w) /\
  exists o d, off = Z.of_nat o /\ get (bufs w') j = Some d /\ size d = match len with Some n => Z.to_nat n | None => size b - o end /\ o + size d <= size b /\ ro d = (match sto b with Null => false | _ => ro b end) /\
  (forall x, place (bufs w') j x = place (bufs w') i (o + x)) /\ (forall k x, k < j -> place (bufs w') k x = place (bufs w) k x) /\
  (forall l, read (strs w) (bufs w) i = Some l -> read (strs w') (bufs w') j = Some (cut l o (size d))).
Proof. exact (slice_ok w i b off len j). Qed.
Example C115_slice_example : let w := run (mkW [] []) [New 8 false; SliceOf 0 2 (Some 4%Z)] in
  snd (step w (SliceOf 1 1 (Some 2%Z))) = Val (ABuf 2) /\ place (bufs (fst (step w (SliceOf 1 1 (Some 2%Z))))) 2 1 = Some (Mem 0, 4).
Proof. split; reflexivity. Qed.
Print Assumptions C115_slice.

(** Bytes written through a buffer are seen through every readable buffer exactly at the bytes that share a written place; all other bytes, sizes, flags and locks stay. *)
Theorem C115_writing w i b l o d : reached w -> get (bufs w) i = Some b -> ro b = false -> read (strs w) (bufs w) i = Some l -> o + length d <= length l ->
  exists w', step w (SetString i (Bytes d) (Z.of_nat o) 0 None) = (w', Val (AInt (Z.of_nat (length d)))) /\ map look (bufs w') = map look (bufs w) /\ read (strs w') (bufs w') i = Some (patch l o d) /\
  forall j m, read (strs w) (bufs w) j = Some m -> exists m', snd (step w' (GetString j 0 None)) = Val (ABytes m') /\ length m' = length m /\ forall x, x < length m ->
    (forall k, k < length d -> place (bufs w) j x = place (bufs w) i (o + k) -> nth_error m' x = nth_error d k) /\
    ((forall k, k < length d -> place (bufs w) j x <> place (bufs w) i (o + k)) -> nth_error m' x = nth_error m x).
Proof. exact (set_string_ok w i b l o d). Qed.
Example C115_writing_example : let w := run (mkW [] []) [New 4 false; SliceOf 0 1 (Some 3%Z); SliceOf 1 1 None; SetString 2 (Bytes [7; 8]%Z) 0 0 None] in
  (snd (step w (GetString 0 0 None)), snd (step w (GetString 1 0 None)), snd (step w (GetString 2 0 None))) = (Val (ABytes [0; 0; 7; 8]%Z), Val (ABytes [0; 7; 8]%Z), Val (ABytes [7; 8]%Z)).
Proof. reflexivity. Qed.
Print Assumptions C115_writing.

(** In every history a buffer with memory of its own has as many bytes as its size says. *)
Theorem C115_sizes w : reached w -> sound w.
Proof. exact (reached_sound w). Qed.
Example C115_sizes_example : map size (bufs (run (mkW [] []) [New 4 false; Resize 0 6; Transfer 0; Resize 0 3])) = [6; 3].
Proof. reflexivity. Qed.
Print Assumptions C115_sizes.

(** No method panics in any history. Missing: set_value and clear through a slice or String that no longer covers the buffer (see the refutations). *)
Theorem C115_no_panic_partial w o : reached w -> snd (step w o) = Panic -> exists i, unchecked o = Some i /\ ~ readable w i.
Proof. exact (no_panic_reached w o). Qed.
Example C115_no_panic_example : let w := run (mkW [[65; 66]%Z] []) [ForBegin 0 false; StrSet 0 []] in
  (snd (step w (GetString 0 0 None)), snd (step w (SetString 0 (Bytes [1%Z]) 0 0 None)), snd (step w (NotIn 0)), snd (step w (SetValue 0 1 Unsigned false 0 1))) = (Err, Err, Err, Err).
Proof. reflexivity. Qed.
Print Assumptions C115_no_panic_partial.

(** False for set_value: after the parent of a slice has been shrunk, set_value through the slice indexes past the end of the memory and panics. Ruby raises InvalidatedError. *)
Theorem C115_set_value_panic_refuted : ~ forall w o, reached w -> snd (step w o) <> Panic.
Proof. exact (panics). Qed.
Print Assumptions C115_set_value_panic_refuted.

(** The same for clear. *)
Theorem C115_clear_panic_refuted : ~ forall w i v off len, reached w -> snd (step w (Clear i v off len)) <> Panic.
Proof. exact (clear_panics). Qed.
Print Assumptions C115_clear_panic_refuted.

(** False: set_value through a slice of a freed buffer answers as if it had written. Ruby raises InvalidatedError. *)
Theorem C115_invalid_write_refuted : ~ forall w i n k big off v a, reached w -> snd (step w (SetValue i n k big off v)) = Val a -> readable w i.
Proof. exact (freed_write). Qed.
Print Assumptions C115_invalid_write_refuted.

(** False: freeing a slice invalidates the slices cut from it. In Ruby those refer to the buffer at the root and stay valid. *)
Theorem C115_middle_refuted : ~ forall w i j k b c d o q, reached w -> get (bufs w) i = Some b -> get (bufs w) j = Some c -> get (bufs w) k = Some d ->
  sto c = Slice i o -> sto d = Slice j q -> readable w k -> locked c = false -> readable (fst (step w (Free j))) k.
Proof. exact (middle). Qed.
Print Assumptions C115_middle_refuted.

(** False: the copy made by dup of a slice writes into the memory of the original. In Ruby a copy has memory of its own. *)
Theorem C115_dup_refuted : ~ forall w i j l n k big off v, reached w -> snd (step w (Dup i)) = Val (ABuf j) -> read (strs w) (bufs w) i = Some l ->
  let w' := fst (step (fst (step w (Dup i))) (SetValue j n k big off v)) in read (strs w') (bufs w') i = Some l.
Proof. exact (dup_alias). Qed.
Print Assumptions C115_dup_refuted.

(** C116. While a buffer is locked nothing frees, transfers, resizes or unlocks it, in any history; only the bytes may change. *)
Theorem C116_locked w i b l : reached w -> get (bufs w) i = Some b -> locked b = true -> Forall (fun o => ~ unlocks o i) l ->
  exists c, get (bufs (run w l)) i = Some c /\ look c = look b.
Proof. exact (locked_stays w i b l). Qed.
Example C116_locked_example : let w := run (mkW [] []) [New 4 false; Lock 0] in
  map snd [step w (Free 0); step w (Transfer 0); step w (Resize 0 9); step w (Lock 0)] = [Err; Err; Err; Err] /\ snd (step (run w [Unlock 0]) (Free 0)) = Val (ABuf 0).
Proof. split; reflexivity. Qed.
Print Assumptions C116_locked.

(** IO::Buffer.for without a block takes a snapshot: whatever is done through any buffer, the snapshot is not written, and the buffer shows it until it is freed or transferred. *)
Theorem C116_snapshot w s l ops : reached w -> nth_error (strs w) s = Some l ->
  let t := length (strs w) in let i := length (bufs w) in let w' := fst (step w (For s)) in
  snd (step w (For s)) = Val (ABuf i) /\
  (Forall (fun o => ~ touches t o) ops -> nth_error (strs (run w' ops)) t = Some l) /\
  (Forall (fun o => ~ touches t o /\ ~ ends o i) ops -> read (strs (run w' ops)) (bufs (run w' ops)) i = Some l).
Proof. exact (snapshot w s l ops). Qed.
Example C116_snapshot_example : let w := run (mkW [[65; 66]%Z] []) [For 0; SliceOf 0 0 None; Dup 1; SetValue 2 1 Unsigned false 0 9; Clear 1 0 0 None; StrSet 0 [90%Z]; Transfer 1; NotIn 3] in
  snd (step w (GetString 0 0 None)) = Val (ABytes [65; 66]%Z) /\ strs w = [[90]; [65; 66]]%Z.
Proof. split; reflexivity. Qed.
Print Assumptions C116_snapshot.

(** free empties the buffer and invalidates the slices cut from it, and leaves older buffers alone. *)
Theorem C116_free w i b : reached w -> get (bufs w) i = Some b -> locked b = false ->
  let w' := fst (step w (Free i)) in snd (step w (Free i)) = Val (ABuf i) /\ read (strs w') (bufs w') i = Some [] /\
  (forall j d o, get (bufs w) j = Some d -> sto d = Slice i o -> 0 < size d -> read (strs w') (bufs w') j = None) /\
  (forall j, j < i -> read (strs w') (bufs w') j = read (strs w) (bufs w) j).
Proof. exact (free_ok w i b). Qed.
Example C116_free_example : let w := run (mkW [] []) [New 4 false; SliceOf 0 1 None; Free 0] in
  (snd (step w (GetString 0 0 None)), snd (step w (GetString 1 0 None))) = (Val (ABytes []), Err).
Proof. reflexivity. Qed.
Print Assumptions C116_free.

(** transfer moves the bytes to a new buffer, empties the old one and invalidates the slices cut from it. *)
Theorem C116_transfer w i b l : reached w -> get (bufs w) i = Some b -> locked b = false -> read (strs w) (bufs w) i = Some l ->
  let w' := fst (step w (Transfer i)) in let k := length (bufs w) in
  snd (step w (Transfer i)) = Val (ABuf k) /\ read (strs w') (bufs w') k = Some l /\ option_map ro (get (bufs w') k) = Some (ro b) /\ read (strs w') (bufs w') i = Some [] /\
  (forall j d o, get (bufs w) j = Some d -> sto d = Slice i o -> 0 < size d -> read (strs w') (bufs w') j = None).
Proof. exact (transfer_ok w i b l). Qed.
Example C116_transfer_example : let w := run (mkW [] []) [New 2 false; SetValue 0 2 Unsigned true 0 258; SliceOf 0 0 None; Transfer 0] in
  (snd (step w (GetString 0 0 None)), snd (step w (GetString 1 0 None)), snd (step w (GetString 2 0 None))) = (Val (ABytes []), Err, Val (ABytes [1; 2]%Z)).
Proof. reflexivity. Qed.
Print Assumptions C116_transfer.

(** resize keeps the bytes up to the new size and fills with zeros. *)
Theorem C116_resize w i b l n : reached w -> get (bufs w) i = Some b -> locked b = false -> read (strs w) (bufs w) i = Some l ->
  match sto b with Null | Owned _ => True | Map _ => priv b = true | _ => False end -> 
  let w' := fst (step w (Resize i (Z.of_nat n))) in
  snd (step w (Resize i (Z.of_nat n))) = Val (ABuf i) /\ read (strs w') (bufs w') i = Some (firstn n l ++ repeat 0%Z (n - length l)).
Proof. exact (resize_ok w i b l n). Qed.
Example C116_resize_example : let w := run (mkW [] []) [New 2 false; SetValue 0 2 Unsigned true 0 258] in
  (snd (step (run w [Resize 0 3]) (GetString 0 0 None)), snd (step (run w [Resize 0 1]) (GetString 0 0 None))) = (Val (ABytes [1; 2; 0]%Z), Val (ABytes [1%Z])).
Proof. reflexivity. Qed.
Print Assumptions C116_resize.

(** False: the copy made by dup of a locked buffer is locked, for ever. In Ruby a copy is not locked. *)
Theorem C116_dup_locked_refuted : ~ forall w i j, reached w -> snd (step w (Dup i)) = Val (ABuf j) -> exists b, get (bufs (fst (step w (Dup i)))) j = Some b /\ locked b = false.
Proof. exact (dup_locked). Qed.
Print Assumptions C116_dup_locked_refuted.

(** False: the copy of a read-only buffer is read-only. In Ruby a copy is writable. *)
Theorem C116_dup_readonly_refuted : ~ forall w i j, reached w -> snd (step w (Dup i)) = Val (ABuf j) -> exists b, get (bufs (fst (step w (Dup i)))) j = Some b /\ ro b = false.
Proof. exact (dup_readonly). Qed.
Print Assumptions C116_dup_readonly_refuted.

Local Open Scope Z_scope.
(** C117. get_value reads the bytes at the offset as a number in the byte order asked for, with two's complement for signed types, and refuses to read past the end. *)
Theorem C117_get w i l n k big o : sound w -> read (strs w) (bufs w) i = Some l -> Forall byte l -> (1 <= n)%nat ->
  step w (GetValue i n k big (Z.of_nat o)) =
  (w, if (o + n <=? length l)%nat then Val (AInt (match k with Signed => signed_of n (unsigned_of (cut l o n) big) | _ => unsigned_of (cut l o n) big end)) else Err).
Proof. exact (get_value_ok w i l n k big o). Qed.
Example C117_get_example : let w := run (mkW [[255; 254; 1]%Z] []) [For 0] in
  map (fun o => snd (step w o)) [GetValue 0 2 Signed true 0; GetValue 0 2 Unsigned false 0; GetValue 0 1 Signed false 1; GetValue 0 4 Unsigned false 0]
  = [Val (AInt (-2)); Val (AInt 65279); Val (AInt (-2)); Err].
Proof. reflexivity. Qed.
Print Assumptions C117_get.

(** set_value stores a number of 64 bits, reduced modulo the width, in the byte order asked for, and get_value of any type of that width gives it back. Missing: numbers of 64 bits or more (see the refutation). *)
Theorem C117_set_partial w i b l n k big o v : reached w -> get (bufs w) i = Some b -> ro b = false -> read (strs w) (bufs w) i = Some l -> (1 <= n <= 8)%nat -> (o + n <= length l)%nat ->
  k = Bits \/ - 2 ^ 63 <= v < 2 ^ 63 ->
  exists w' d, step w (SetValue i n k big (Z.of_nat o) v) = (w', Val (AInt (Z.of_nat (o + n)))) /\
    read (strs w') (bufs w') i = Some (patch l o d) /\ length d = n /\ Forall byte d /\ unsigned_of d big = v mod 2 ^ (8 * Z.of_nat n) /\
    (forall k', snd (step w' (GetValue i n k' big (Z.of_nat o))) = Val (AInt (ruby_value k' n v))).
Proof. exact (set_value_ok w i b l n k big o v). Qed.
Example C117_set_example : let w := run (mkW [] []) [New 4 false; SetValue 0 2 Unsigned true 1 (-2)] in
  (snd (step w (GetString 0 0 None)), snd (step w (GetValue 0 2 Signed true 1)), snd (step w (GetValue 0 2 Unsigned true 1))) = (Val (ABytes [0; 255; 254; 0]%Z), Val (AInt (-2)), Val (AInt 65534)).
Proof. reflexivity. Qed.
Print Assumptions C117_set_partial.

(** Read-only buffers, offsets past the end and numbers out of range are refused, with nothing written. *)
Theorem C117_set_refused w i n k big off v b : get (bufs w) i = Some b -> ro b = true \/ Z.of_nat (size b) < off + Z.of_nat n \/ k <> Bits /\ ~ (- 2 ^ 63 <= v < 2 ^ 63) ->
  step w (SetValue i n k big off v) = (w, Err).
Proof. exact (set_value_refuses w i n k big off v b). Qed.
Example C117_set_refused_example : snd (step (run (mkW [[65]%Z] []) [For 0]) (SetValue 0 1 Unsigned false 0 1)) = Err.
Proof. reflexivity. Qed.
Print Assumptions C117_set_refused.

(** values reads one number after another from the offset, as many as asked for or as fit. *)
Theorem C117_values w i l n k big o count : sound w -> read (strs w) (bufs w) i = Some l -> (1 <= n)%nat -> (o <= length l)%nat ->
  step w (Values i n k big (Z.of_nat o) (option_map Z.of_nat count)) =
  (w, Val (AInts (map (fun j => decode (cut l (o + j * n) n) k big) (seq 0 (match count with Some c => Nat.min c (Nat.div (length l - o) n) | None => Nat.div (length l - o) n end))))).
Proof. exact (values_ok w i l n k big o count). Qed.
Example C117_values_example : snd (step (run (mkW [[1; 2; 3; 4; 5]%Z] []) [For 0]) (Values 0 2 Unsigned true 0 None)) = Val (AInts [258; 772]%Z).
Proof. reflexivity. Qed.
Print Assumptions C117_values.

(** and, or and xor combine each byte with the mask repeated, into a new buffer. *)
Theorem C117_mask w f i m l k : reached w -> read (strs w) (bufs w) i = Some l -> read (strs w) (bufs w) m = Some k -> k <> [] ->
  let w' := fst (step w (Bit f i m)) in let j := length (bufs w) in
  snd (step w (Bit f i m)) = Val (ABuf j) /\ exists r, read (strs w') (bufs w') j = Some r /\ length r = length l /\
  forall x, (x < length l)%nat -> nth_error r x = Some (bit f (nth x l 0) (nth (Nat.modulo x (length k)) k 0)).
Proof. exact (bit_ok w f i m l k). Qed.
Example C117_mask_example : let w := run (mkW [[255; 240; 15]; [15; 255]]%Z []) [For 0; For 1; Bit And 0 1] in snd (step w (GetString 2 0 None)) = Val (ABytes [15; 240; 15]%Z).
Proof. reflexivity. Qed.
Print Assumptions C117_mask.

(** The methods ending in ! do the same in place. *)
Theorem C117_mask_in_place w f i m b l k : reached w -> get (bufs w) i = Some b -> ro b = false -> read (strs w) (bufs w) i = Some l -> read (strs w) (bufs w) m = Some k -> k <> [] ->
  let w' := fst (step w (BitIn f i m)) in
  snd (step w (BitIn f i m)) = Val (ABuf i) /\ exists r, read (strs w') (bufs w') i = Some r /\ length r = length l /\
  forall x, (x < length l)%nat -> nth_error r x = Some (bit f (nth x l 0) (nth (Nat.modulo x (length k)) k 0)).
Proof. exact (bit_in_ok w f i m b l k). Qed.
Example C117_mask_in_place_example : let w := run (mkW [[255; 240; 15]; [15; 255]]%Z []) [ForBegin 0 false; For 1; BitIn Xor 0 1] in snd (step w (GetString 0 0 None)) = Val (ABytes [240; 15; 0]%Z).
Proof. reflexivity. Qed.
Print Assumptions C117_mask_in_place.

(** Buffers of one size are ordered by their first differing byte. Missing: buffers of different sizes (see the refutation). *)
Theorem C117_order_partial w i j a b : read (strs w) (bufs w) i = Some a -> read (strs w) (bufs w) j = Some b -> length a = length b ->
  exists z, step w (Compare i j) = (w, Val (AInt z)) /\ z = ruby_order a b /\ (z = 0 <-> a = b) /\ (z = -1 <-> exists p x y a' b', a = p ++ x :: a' /\ b = p ++ y :: b' /\ x < y).
Proof. exact (compare_ok w i j a b). Qed.
Example C117_order_example : snd (step (run (mkW [[1; 2]; [1; 3]]%Z []) [For 0; For 1]) (Compare 0 1)) = Val (AInt (-1)).
Proof. reflexivity. Qed.
Print Assumptions C117_order_partial.

(** False: get_value takes a negative offset as 0. Ruby raises ArgumentError. *)
Theorem C117_negative_get_refuted : ~ forall w i n k big off, reached w -> off < 0 -> snd (step w (GetValue i n k big off)) = Err.
Proof. exact (negative_get). Qed.
Print Assumptions C117_negative_get_refuted.

(** False: set_value takes a negative offset as 0 and writes there. Ruby raises ArgumentError. *)
Theorem C117_negative_set_refuted : ~ forall w i n k big off v, reached w -> off < 0 -> step w (SetValue i n k big off v) = (w, Err).
Proof. exact (negative_set). Qed.
Print Assumptions C117_negative_set_refuted.

(** False: set_value refuses unsigned numbers from 2^63 on, which get_value can return. Ruby stores them. *)
Theorem C117_u64_refuted : ~ forall w i b l n big o v, reached w -> get (bufs w) i = Some b -> ro b = false -> read (strs w) (bufs w) i = Some l -> (o + n <= length l)%nat -> 0 <= v < 2 ^ (8 * Z.of_nat n) ->
  snd (step w (SetValue i n Unsigned big (Z.of_nat o) v)) <> Err.
Proof. exact (big_unsigned). Qed.
Print Assumptions C117_u64_refuted.

(** False: values and each stop at the end when asked for more numbers than there are. Ruby raises ArgumentError. *)
Theorem C117_count_refuted : ~ forall w i l n k big c, reached w -> read (strs w) (bufs w) i = Some l -> Z.of_nat (length l) < c * Z.of_nat n -> snd (step w (Values i n k big 0 (Some c))) = Err.
Proof. exact (count_short). Qed.
Print Assumptions C117_count_refuted.

(** False: <=> compares bytes before sizes. Ruby puts the shorter buffer first. *)
Theorem C117_order_refuted : ~ forall w i j a b, reached w -> read (strs w) (bufs w) i = Some a -> read (strs w) (bufs w) j = Some b -> snd (step w (Compare i j)) = Val (AInt (ruby_order a b)).
Proof. exact (order_bad). Qed.
Print Assumptions C117_order_refuted.

(** False: copying a String through a buffer onto a later part of the same String repeats its first bytes. Ruby moves the bytes. *)
Theorem C117_overlap_refuted : ~ forall w i b s l, reached w -> get (bufs w) i = Some b -> sto b = Str s 0 -> ro b = false -> nth_error (strs w) s = Some l -> (2 <= length l)%nat -> size b = length l ->
  nth_error (strs (fst (step w (SetString i (Same s) 1 0 (Some (Z.of_nat (length l) - 1)))))) s = Some (moved l 1 (firstn (length l - 1) l)).
Proof. exact (smears). Qed.
Example C117_apart_example : nth_error (strs (run (mkW [[65; 66; 67; 68]%Z] []) [ForBegin 0 false; SetString 0 (Same 0) 2 0 (Some 2%Z)])) 0 = Some [65; 66; 65; 66]%Z.
Proof. reflexivity. Qed.

Example C117_part_example : snd (step (run (mkW [[65; 66; 67; 68]%Z] []) [For 0]) (GetString 0 1 (Some 2%Z))) = Val (ABytes [66; 67]%Z).
Proof. reflexivity. Qed.

Example C117_clear_example : nth_error (strs (run (mkW [[65; 66; 67; 68]%Z] []) [ForBegin 0 false; Clear 0 300 1 (Some 2%Z)])) 0 = Some [65; 44; 44; 68]%Z.
Proof. reflexivity. Qed.

Example C117_not_example : snd (step (run (mkW [[65; 255]%Z] []) [For 0; Not 0]) (GetString 1 0 None)) = Val (ABytes [190; 0]%Z).
Proof. reflexivity. Qed.

Example C116_readonly_example : snd (step (run (mkW [] []) [New 2 true]) (SetValue 0 1 Unsigned false 0 9)) = Err.
Proof. reflexivity. Qed.
Print Assumptions C117_overlap_refuted.
