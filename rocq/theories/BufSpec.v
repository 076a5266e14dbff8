(** What Ruby promises of IO::Buffer. *)
From Coq Require Import List Bool ZArith Arith.
From Verif Require Import BufModel.
Import ListNotations.

(** Where byte [x] of buffer [i] lives: in a String, or in the memory of a buffer. *)
Inductive cell := Text (s : nat) | Mem (i : nat).
Fixpoint place (h : heap) (i x : nat) : option (cell * nat) :=
  match h with
  | [] => None
  | b :: t =>
      if i =? length t then
        match sto b with Null => None | Owned _ | Map _ => Some (Mem i, x) | Str s o => Some (Text s, o + x) | Slice p o => place t p (o + x) end
      else place t i x
  end.
Definition content (ss : list (list Z)) (h : heap) (c : cell) (y : nat) : option Z :=
  match c with
  | Text s => nth_error (nth s ss []) y
  | Mem i => match get h i with Some b => match sto b with Owned l | Map l => nth_error l y | _ => None end | None => None end
  end.
(** A buffer with memory of its own has as many bytes as its size says. *)
Definition fits (b : buf) : Prop := match sto b with Owned l | Map l => size b = length l | Null => size b = 0 | _ => True end.
Definition sound (w : world) : Prop := Forall fits (bufs w).
(** What other buffers see, but for the bytes *)
Definition shape (s : storage) : storage := match s with Owned l => Owned (repeat 0%Z (length l)) | Map l => Map (repeat 0%Z (length l)) | s => s end.
Definition look (b : buf) : storage * nat * bool * bool * bool := (shape (sto b), size b, ro b, priv b, locked b).
Definition readable (w : world) (i : nat) : Prop := read (strs w) (bufs w) i <> None.
(** Reached from some Strings by any history *)
Definition reached (w : world) : Prop := exists ss l, w = run (mkW ss []) l.
(** The two methods that do not look whether their slice is still there *)
Definition unchecked (o : op) : option nat := match o with SetValue i _ _ _ _ _ => Some i | Clear i _ _ _ => Some i | _ => None end.
Definition unlocks (o : op) (i : nat) : Prop := o = Unlock i \/ o = ForEnd i.
(** Writing the String [s] itself, or lending it for writing *)
Definition touches (s : nat) (o : op) : Prop := (exists l, o = StrSet s l) \/ o = ForBegin s false.
(** The ways to take the storage of a buffer from it *)
Definition ends (o : op) (i : nat) : Prop := o = Free i \/ o = Transfer i \/ o = ForEnd i.

Local Open Scope Z_scope.
(** Typed values *)
Definition unsigned_of (l : list Z) (big : bool) : Z := fold_left (fun a b => 256 * a + b) (if big then l else rev l) 0.
Definition signed_of (n : nat) (u : Z) : Z := (u + 2 ^ (8 * Z.of_nat n - 1)) mod 2 ^ (8 * Z.of_nat n) - 2 ^ (8 * Z.of_nat n - 1).
Definition ruby_value (k : kind) (n : nat) (v : Z) : Z := match k with Signed => signed_of n v | _ => v mod 2 ^ (8 * Z.of_nat n) end.
Definition byte (b : Z) : Prop := 0 <= b < 256.
(** Ruby orders buffers by size first. *)
Definition ruby_order (a b : list Z) : Z :=
  if (length a <? length b)%nat then -1 else if (length b <? length a)%nat then 1 else lex a b.
(** Bytes [d] moved over [l] at [o], whatever they overlap *)
Definition moved (l : list Z) (o : nat) (d : list Z) : list Z :=
  map (fun x => if (o <=? x)%nat && (x <? o + length d)%nat then nth (x - o) d 0 else nth x l 0) (seq 0 (length l)).
