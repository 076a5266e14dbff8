(** What a user of an insertion-ordered map expects: an association list.
    [eqk] is key equality ([eql?]). *)
From Coq Require Import List Bool Arith Permutation.
Import ListNotations.

Section S.
Context {K V : Type} (eqk : K -> K -> bool).

(** The pair stored under [k], if any. *)
Definition s_get (k : K) (l : list (K * V)) : option (K * V) :=
  find (fun p => eqk k (fst p)) l.

(** Update in place (the stored key stays) or append at the end. *)
Fixpoint s_put (k : K) (v : V) (l : list (K * V)) : list (K * V) :=
  match l with
  | [] => [(k, v)]
  | (k', v') :: l' => if eqk k k' then (k', v) :: l' else (k', v') :: s_put k v l'
  end.

(** Same, but the stored key is replaced too. *)
Fixpoint s_replace (k : K) (v : V) (l : list (K * V)) : list (K * V) :=
  match l with
  | [] => [(k, v)]
  | (k', v') :: l' => if eqk k k' then (k, v) :: l' else (k', v') :: s_replace k v l'
  end.

(** Delete, keeping the order of the others. *)
Definition s_delete (k : K) (l : list (K * V)) : list (K * V) :=
  filter (fun p => negb (eqk k (fst p))) l.

(** Delete the [i]-th pair. *)
Definition s_delete_nth (i : nat) (l : list (K * V)) : list (K * V) :=
  firstn i l ++ skipn (S i) l.

(** Put the last pair into the hole left by deleting the [i]-th. *)
Definition s_swap_nth (i : nat) (l : list (K * V)) : list (K * V) :=
  if S i =? length l then removelast l
  else match rev l with
       | [] => []
       | z :: _ => removelast (firstn i l ++ z :: skipn (S i) l)
       end.

(** Position of [k]. *)
Fixpoint s_pos (k : K) (l : list (K * V)) : option nat :=
  match l with
  | [] => None
  | (k', _) :: l' => if eqk k k' then Some 0 else option_map S (s_pos k l')
  end.

(** Move the [a]-th pair to position [b] (both in range). *)
Definition s_move (a b : nat) (l : list (K * V)) : list (K * V) :=
  match nth_error l a with
  | None => l
  | Some p => let l' := s_delete_nth a l in firstn b l' ++ p :: skipn b l'
  end.

(** Rearrange by a list of positions. *)
Definition s_pick {A} (idx : list nat) (l : list A) : list A :=
  flat_map (fun i => match nth_error l i with Some x => [x] | None => [] end) idx.
End S.

(** The operations a client can issue, and what each does to the association
    list.  The boolean is true inside a deletion window (between a deletion
    made while somebody iterates and the final compaction). *)
Inductive op (K V : Type) :=
| Get (k : K) | Put (k : K) (v : V) | Replace (k : K) (v : V)
| Delete (k : K) | SwapDelete (k : K) | DeleteAt (i : nat) | SwapDeleteAt (i : nat)
| Pop | Clear | Truncate (n : nat) | Drain (s e : nat) | SplitOff (n : nat)
| Reserve (n : nat) | Retain (p : K -> V -> bool) | Reorder (idx : list nat)
| Reverse | Move (a b : nat) | InsertAt (i : nat) (k : K) (v : V)
| LazyDelete (k : K) | LazyShift | Compact.
Arguments Get {K V}. Arguments Put {K V}. Arguments Replace {K V}. Arguments Delete {K V}.
Arguments SwapDelete {K V}. Arguments DeleteAt {K V}. Arguments SwapDeleteAt {K V}. Arguments Pop {K V}.
Arguments Clear {K V}. Arguments Truncate {K V}. Arguments Drain {K V}. Arguments SplitOff {K V}.
Arguments Reserve {K V}. Arguments Retain {K V}. Arguments Reorder {K V}. Arguments Reverse {K V}.
Arguments Move {K V}. Arguments InsertAt {K V}. Arguments LazyDelete {K V}. Arguments LazyShift {K V}.
Arguments Compact {K V}.

Section Run.
Context {K V : Type} (eqk : K -> K -> bool).
Notation st := (list (K * V) * bool)%type.

(** Calls a client may make: indices in range (the API panics otherwise), and
    inside a deletion window only look-ups, stores and lazy deletions. *)
Definition allowed (o : op K V) (s : st) : Prop :=
  let (l, dirty) := s in
  match o with
  | Get _ | Put _ _ | Replace _ _ | Clear | Reserve _ | LazyDelete _ | LazyShift | Compact => True
  | Drain s e => dirty = false /\ s <= e <= length l
  | SplitOff n => dirty = false /\ n <= length l
  | Reorder idx => dirty = false /\ Permutation.Permutation idx (seq 0 (length l))
  | Move a b => dirty = false /\ a < length l /\ b < length l
  | InsertAt i k _ => dirty = false /\ i <= length l /\ s_pos eqk k l = None
  | _ => dirty = false
  end.

(** New contents, and the pairs handed back to the caller. *)
Definition spec_step (o : op K V) (s : st) : st * list (K * V) :=
  let (l, d) := s in
  let one (x : option (K * V)) := match x with Some p => [p] | None => [] end in
  match o with
  | Get k => ((l, d), one (s_get eqk k l))
  | Put k v => ((s_put eqk k v l, d), one (s_get eqk k l))
  | Replace k v => ((s_replace eqk k v l, d), one (s_get eqk k l))
  | Delete k => ((s_delete eqk k l, d), one (s_get eqk k l))
  | SwapDelete k => ((match s_pos eqk k l with Some i => s_swap_nth i l | None => l end, d),
                     one (s_get eqk k l))
  | DeleteAt i => ((s_delete_nth i l, d), one (nth_error l i))
  | SwapDeleteAt i => ((if i <? length l then s_swap_nth i l else l, d), one (nth_error l i))
  | Pop => ((removelast l, d), one (nth_error l (length l - 1)))
  | Clear => (([], false), [])
  | Truncate n => ((firstn n l, d), [])
  | Drain a b => ((firstn a l ++ skipn b l, d), firstn (b - a) (skipn a l))
  | SplitOff n => ((firstn n l, d), skipn n l)
  | Reserve _ => ((l, d), [])
  | Retain p => ((filter (fun x => p (fst x) (snd x)) l, d), [])
  | Reorder idx => ((s_pick idx l, d), [])
  | Reverse => ((rev l, d), [])
  | Move a b => ((s_move a b l, d), [])
  | InsertAt i k v => ((firstn i l ++ (k, v) :: skipn i l, d), [])
  | LazyDelete k => ((s_delete eqk k l, true), one (s_get eqk k l))
  | LazyShift => ((tl l, true), one (hd_error l))
  | Compact => ((l, false), [])
  end.

Fixpoint all_allowed (os : list (op K V)) (s : st) : Prop :=
  match os with [] => True | o :: os' => allowed o s /\ all_allowed os' (fst (spec_step o s)) end.
Fixpoint spec_run (os : list (op K V)) (s : st) : st * list (list (K * V)) :=
  match os with
  | [] => (s, [])
  | o :: os' => let (s1, x) := spec_step o s in
                let (s2, xs) := spec_run os' s1 in (s2, x :: xs)
  end.
End Run.
