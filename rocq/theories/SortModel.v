(** Model of Array#sort / Array#sort!.
    Source: /repo/monoruby/src/executor/op/sort.rs (whole file) and its callers
    sort_inner/sort_with_buf, builtins/array.rs:2602-2680.

    - The array and the scratch buffer are explicit memories; every load, store
      and block copy is bounds-checked here and [Bad] is an access outside them
      (undefined behaviour in the Rust code, or a slice panic).
    - The comparator is arbitrary: a function of its own state, of the memory
      and of the two elements, answering "less", "not less" or raising.  It does not resize the
      array being sorted (sort! hands out the slice of the receiver; a block that
      resizes the receiver is outside this model).
    - Unbounded loops carry fuel; running out is [Bad], and the theorems exclude it. *)
From Coq Require Import List Bool Arith.
Import ListNotations.

Section Sort.
Context {A St : Type}.
(** [cmp s arr buf x y]: is x less than y; None = raised.  The comparator also
    sees the array and the scratch buffer as they are during the call: a block can
    read the receiver of sort!, and a garbage collection inside the block marks
    from both. *)
Variable cmp : St -> list A -> list A -> A -> A -> St * option bool.

(** sort.rs:5, 136: MAX_INSERTION and MIN_RUN. *)
Definition MAX_INSERTION : nat := 20.
Definition MIN_RUN : nat := 10.

(** sort.rs:21-23 [merge_scratch_len]. *)
Definition merge_scratch_len (len : nat) : nat := if len <=? MAX_INSERTION then 0 else len / 2.

(** Memory: comparator state, array, scratch buffer. *)
Record mem := M { st : St; arr : list A; buf : list A }.
(** [Ok m x] normal completion, [Err m] an error propagates (`?`). *)
Inductive out (X : Type) := Bad | Err (m : mem) | Ok (m : mem) (x : X).
Arguments Bad {X}. Arguments Err {X}. Arguments Ok {X}.
Definition bind {X Y} (r : out X) (f : mem -> X -> out Y) : out Y :=
  match r with Bad => Bad | Err m => Err m | Ok m x => f m x end.

Definition store (l : list A) (i : nat) (x : A) : option (list A) :=
  if i <? length l then Some (firstn i l ++ x :: skipn (S i) l) else None.
(** ptr::copy_nonoverlapping of [xs] to position [i]. *)
Definition blit (l : list A) (i : nat) (xs : list A) : option (list A) :=
  if i + length xs <=? length l then Some (firstn i l ++ xs ++ skipn (i + length xs) l) else None.
Definition slice (l : list A) (i n : nat) : option (list A) :=
  if i + n <=? length l then Some (firstn n (skipn i l)) else None.

(** is_less on two loaded words. *)
Definition less (m : mem) (a b : option A) : out bool :=
  match a, b with
  | Some x, Some y =>
      let (s, r) := cmp (st m) (arr m) (buf m) x y in
      match r with Some b => Ok (M s (arr m) (buf m)) b | None => Err (M s (arr m) (buf m)) end
  | _, _ => Bad
  end.
Definition put (m : mem) (i : nat) (x : A) : out unit :=
  match store (arr m) i x with Some l => Ok (M (st m) l (buf m)) tt | None => Bad end.

(** sort.rs:238-278 [insert_head] on v[lo..hi].  [InsertionHole::drop] writes
    [tmp] to [dest] on every exit, errors included. *)
Definition drop_insertion (tmp : A) (dest : nat) (m : mem) (e : bool) : out unit :=
  bind (put m dest tmp) (fun m' _ => if e then Err m' else Ok m' tt).
Fixpoint insert_loop (n : nat) (tmp : A) (i dest : nat) (m : mem) : out unit :=
  match n with
  | O => drop_insertion tmp dest m false
  | S n' =>
      match less m (nth_error (arr m) i) (Some tmp) with
      | Bad => Bad
      | Err m' => drop_insertion tmp dest m' true
      | Ok m' false => drop_insertion tmp dest m' false
      | Ok m' true =>
          match nth_error (arr m') i with
          | None => Bad
          | Some x => bind (put m' (i - 1) x) (fun m2 _ => insert_loop n' tmp (S i) i m2)
          end
      end
  end.
Definition insert_head (lo hi : nat) (m : mem) : out unit :=
  if hi - lo <? 2 then Ok m tt
  else bind (less m (nth_error (arr m) (S lo)) (nth_error (arr m) lo)) (fun m b =>
    if negb b then Ok m tt
    else match nth_error (arr m) lo, nth_error (arr m) (S lo) with
         | Some tmp, Some x => bind (put m lo x) (fun m _ => insert_loop (hi - lo - 2) tmp (lo + 2) (S lo) m)
         | _, _ => Bad
         end).

(** sort.rs:280-380 [merge] on v[lo..hi] with the left run of length [mid].
    [MergeHole::drop] copies buf[start..stop] to [dest] on every exit. *)
Definition drop_merge (start stop dest : nat) (m : mem) (e : bool) : out unit :=
  match slice (buf m) start (stop - start) with
  | None => Bad
  | Some xs => match blit (arr m) dest xs with
               | None => Bad
               | Some l => if e then Err (M (st m) l (buf m)) else Ok (M (st m) l (buf m)) tt
               end
  end.
(** sort.rs:306-321: [left] walks the buffer, [right] the array, [o] is the output. *)
Fixpoint merge_lo (n left stop right hi o : nat) (m : mem) : out unit :=
  if (left <? stop) && (right <? hi) then
    match n with
    | O => Bad
    | S n' =>
        match less m (nth_error (arr m) right) (nth_error (buf m) left) with
        | Bad => Bad
        | Err m' => drop_merge left stop o m' true
        | Ok m' true =>
            match nth_error (arr m') right with
            | None => Bad
            | Some x => bind (put m' o x) (fun m2 _ => merge_lo n' left stop (S right) hi (S o) m2)
            end
        | Ok m' false =>
            match nth_error (buf m') left with
            | None => Bad
            | Some x => bind (put m' o x) (fun m2 _ => merge_lo n' (S left) stop right hi (S o) m2)
            end
        end
    end
  else drop_merge left stop o m false.
(** sort.rs:333-348: [left] ends the rest of the left run, [right] the rest of
    the buffer, [o] is the end of the output. *)
Fixpoint merge_hi (n lo left right o : nat) (m : mem) : out unit :=
  if (lo <? left) && (0 <? right) then
    match n with
    | O => Bad
    | S n' =>
        match less m (nth_error (buf m) (right - 1)) (nth_error (arr m) (left - 1)) with
        | Bad => Bad
        | Err m' => drop_merge 0 right left m' true
        | Ok m' true =>
            match nth_error (arr m') (left - 1) with
            | None => Bad
            | Some x => bind (put m' (o - 1) x) (fun m2 _ => merge_hi n' lo (left - 1) right (o - 1) m2)
            end
        | Ok m' false =>
            match nth_error (buf m') (right - 1) with
            | None => Bad
            | Some x => bind (put m' (o - 1) x) (fun m2 _ => merge_hi n' lo left (right - 1) (o - 1) m2)
            end
        end
    end
  else drop_merge 0 right left m false.
Definition merge (lo hi mid : nat) (m : mem) : out unit :=
  let len := hi - lo in
  if mid <=? len - mid then
    match slice (arr m) lo mid with
    | None => Bad
    | Some xs => match blit (buf m) 0 xs with
                 | None => Bad
                 | Some b => merge_lo len 0 mid (lo + mid) hi lo (M (st m) (arr m) b)
                 end
    end
  else
    match slice (arr m) (lo + mid) (len - mid) with
    | None => Bad
    | Some xs => match blit (buf m) 0 xs with
                 | None => Bad
                 | Some b => merge_hi len lo (lo + mid) (len - mid) hi (M (st m) (arr m) b)
                 end
    end.

(** sort.rs:212-230 [collapse]; a run is (start, len), the last one is the newest. *)
Notation run := (nat * nat)%type.
Definition rlen (rs : list run) (i : nat) : nat := snd (nth i rs (0, 0)).
Definition collapse (rs : list run) : option nat :=
  let n := length rs in
  if (2 <=? n) &&
     ((fst (nth (n - 1) rs (0, 0)) =? 0)
      || (rlen rs (n - 2) <=? rlen rs (n - 1))
      || ((3 <=? n) && (rlen rs (n - 3) <=? rlen rs (n - 2) + rlen rs (n - 1)))
      || ((4 <=? n) && (rlen rs (n - 4) <=? rlen rs (n - 3) + rlen rs (n - 2))))
  then Some (if (3 <=? n) && (rlen rs (n - 3) <? rlen rs (n - 1)) then n - 3 else n - 2)
  else None.

(** sort.rs:190-205: merge pairs of adjacent runs. *)
Fixpoint merge_runs (n : nat) (rs : list run) (m : mem) : out (list run) :=
  match collapse rs with
  | None => Ok m rs
  | Some r =>
      match n with
      | O => Bad
      | S n' =>
          match nth_error rs (S r), nth_error rs r with
          | Some rl, Some rr =>
              bind (merge (fst rl) (fst rr + snd rr) (snd rl) m) (fun m' _ =>
                merge_runs n' (firstn r rs ++ (fst rl, snd rl + snd rr) :: skipn (S (S r)) rs) m')
          | _, _ => Bad
          end
      end
  end.

(** sort.rs:158-175: extend the run downwards while [want] is the answer. *)
Fixpoint extend_run (want : bool) (start : nat) (m : mem) : out nat :=
  match start with
  | O => Ok m O
  | S s' =>
      bind (less m (nth_error (arr m) start) (nth_error (arr m) s')) (fun m' b =>
        if eqb b want then extend_run want s' m' else Ok m' start)
  end.
Definition reverse_range (lo hi : nat) (m : mem) : out unit :=
  match slice (arr m) lo (hi - lo) with
  | None => Bad
  | Some xs => match blit (arr m) lo (rev xs) with
               | Some l => Ok (M (st m) l (buf m)) tt | None => Bad end
  end.
(** sort.rs:154-176: the next natural run below [e]; its start. *)
Definition find_run (e : nat) (m : mem) : out nat :=
  let start := e - 1 in
  if 0 <? start then
    let start := start - 1 in
    bind (less m (nth_error (arr m) (S start)) (nth_error (arr m) start)) (fun m b =>
      if b then bind (extend_run true start m) (fun m s => bind (reverse_range s e m) (fun m _ => Ok m s))
      else extend_run false start m)
  else Ok m start.
(** sort.rs:178-183. *)
Fixpoint grow_run (start e : nat) (m : mem) : out nat :=
  match start with
  | O => Ok m O
  | S s' => if e - start <? MIN_RUN then bind (insert_head s' e m) (fun m _ => grow_run s' e m)
            else Ok m start
  end.

(** sort.rs:149-206: the main loop. *)
Fixpoint sort_loop (n e : nat) (rs : list run) (m : mem) : out (list run) :=
  if e =? 0 then Ok m rs
  else match n with
  | O => Bad
  | S n' =>
      bind (find_run e m) (fun m start =>
      bind (grow_run start e m) (fun m start =>
      bind (merge_runs (S (length rs)) (rs ++ [(start, e - start)]) m) (fun m rs =>
      sort_loop n' start rs m)))
  end.
(** sort.rs:138-148. *)
Fixpoint insertion_sort (i len : nat) (m : mem) : out unit :=
  match i with
  | O => Ok m tt
  | S i' => bind (insert_head i' len m) (fun m _ => insertion_sort i' len m)
  end.
Definition merge_sort (m : mem) : out unit :=
  let len := length (arr m) in
  if len <=? MAX_INSERTION then insertion_sort (len - 1) len m
  else bind (sort_loop len len [] m) (fun m _ => Ok m tt).

(** array.rs:2602-2650: allocate the scratch array, then sort. *)
Definition sort (nil : A) (s : St) (l : list A) : out unit :=
  merge_sort (M s l (repeat nil (merge_scratch_len (length l)))).
End Sort.
Arguments Bad {A St X}. Arguments Err {A St X}. Arguments Ok {A St X}.
Arguments M {A St}. Arguments st {A St}. Arguments arr {A St}. Arguments buf {A St}.
