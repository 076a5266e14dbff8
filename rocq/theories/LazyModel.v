(** Enumerator::Lazy.

    Modelled: /repo/monoruby/builtins/lazy.rb:78-330 (the stages map, flat_map,
    select, reject, filter_map, grep, grep_v, compact, uniq, take, take_while,
    drop, drop_while, with_index without a block, zip without a block) with
    their sizes, 360-371 (eager, force), and
    /repo/monoruby/builtins/enumerable.rb:641-670 (first), 872-877 (lazy).

    A stage runs the each of the stage before it with a block; the block pushes
    values into the Yielder, which calls the block of the stage after it; break
    leaves the each of its own stage. Each yields one value at a time. Blocks
    given to the stages are pure functions. The source is the list of the
    elements it would yield; what does not depend on its end holds for endless
    sources. *)
From Coq Require Import ZArith List Bool.
Import ListNotations.
Local Open Scope Z_scope.

(** What the block of flat_map gives: an Array, a lazy enumerator, an object
    with to_ary, anything else. *)
Inductive answer (V : Type) :=
| AArray (l : list V) | ALazy (l : list V) | AToAry (v : V) (l : list V) | AOne (v : V).
Arguments AArray {V}. Arguments ALazy {V}. Arguments AToAry {V}. Arguments AOne {V}.

(** Predicates stand for the truth of what the block (or === or nil?) gives;
    None for false and nil. The rows of zip are made by [row] from the element
    and the elements of the others, None for nil; the n-th element of another,
    indexed or by next. *)
Inductive stage (V : Type) :=
| Map (f : V -> V)
| FlatMap (f : V -> answer V)
| Select (p : V -> bool)
| Reject (p : V -> bool)
| FilterMap (f : V -> option V)
| Grep (p : V -> bool) (f : V -> V)
| GrepV (p : V -> bool) (f : V -> V)
| Compact (nilp : V -> bool)
| Uniq (key : V -> V) (eqk : V -> V -> bool)
| Take (n : Z)
| TakeWhile (p : V -> bool)
| Drop (n : Z)
| DropWhile (p : V -> bool)
| WithIndex (off : Z) (mk : V -> Z -> V)
| Zip (row : V -> list (option V) -> V) (others : list (nat -> option V)).
Arguments Map {V}. Arguments FlatMap {V}. Arguments Select {V}. Arguments Reject {V}.
Arguments FilterMap {V}. Arguments Grep {V}. Arguments GrepV {V}. Arguments Compact {V}.
Arguments Uniq {V}. Arguments Take {V}. Arguments TakeWhile {V}. Arguments Drop {V}.
Arguments DropWhile {V}. Arguments WithIndex {V}. Arguments Zip {V}.

(** The local variables of a run: taken, seen or i; dropping; the keys of the
    table of uniq. *)
Record vars (V : Type) := mkV { count : Z; dropping : bool; keys : list V }.
Arguments mkV {V}. Arguments count {V}. Arguments dropping {V}. Arguments keys {V}.

Definition init {V} (st : stage V) : vars V :=
  match st with
  | WithIndex off _ => mkV off true []
  | _ => mkV 0 true []
  end.

(** One call of the block of a stage: the values it pushes, in order, and
    whether it breaks after them. *)
Definition body {V} (st : stage V) (q : vars V) (v : V) : vars V * list V * bool :=
  match st with
  | Map f => (q, [f v], false)
  | FlatMap f =>
      (q, match f v with AArray l => l | ALazy l => l | AToAry o _ => [o] | AOne o => [o] end, false)
  | Select p => (q, if p v then [v] else [], false)
  | Reject p => (q, if p v then [] else [v], false)
  | FilterMap f => (q, match f v with Some w => [w] | None => [] end, false)
  | Grep p f => (q, if p v then [f v] else [], false)
  | GrepV p f => (q, if p v then [] else [f v], false)
  | Compact nilp => (q, if nilp v then [] else [v], false)
  | Uniq key eqk =>
      if existsb (fun k => eqk k (key v)) (keys q) then (q, [], false)
      else (mkV (count q) (dropping q) (keys q ++ [key v]), [v], false)
  | Take n =>
      let taken := count q + 1 in
      (mkV taken (dropping q) (keys q), [v], n <=? taken)
  | TakeWhile p => if p v then (q, [v], false) else (q, [], true)
  | Drop n => (mkV (count q + 1) (dropping q) (keys q), if n <=? count q then [v] else [], false)
  | DropWhile p =>
      if dropping q && p v then (q, [], false)
      else (mkV (count q) false (keys q), [v], false)
  | WithIndex _ mk => (mkV (count q + 1) (dropping q) (keys q), [mk v (count q)], false)
  | Zip row others =>
      (mkV (count q + 1) (dropping q) (keys q),
       [row v (map (fun c => c (Z.to_nat (count q))) others)], false)
  end.

(** y << v for each of the values; the block of the stage after it may leave
    all of this. *)
Fixpoint push {V S} (k : S -> V -> S * bool) (s : S) (vs : list V) : S * bool :=
  match vs with
  | [] => (s, false)
  | v :: r => let '(s', stop) := k s v in if stop then (s', true) else push k s' r
  end.

(** each of the source: the state of the block, whether the block left, and
    how many elements were asked for. *)
Fixpoint each_src {V S} (k : S -> V -> S * bool) (s : S) (l : list V) : S * bool * nat :=
  match l with
  | [] => (s, false, O)
  | v :: r =>
      let '(s', stop) := k s v in
      if stop then (s', true, 1%nat)
      else let '(s'', b, n) := each_src k s' r in (s'', b, Datatypes.S n)
  end.

(** take(0) does not touch the source. *)
Definition idle {V} (st : stage V) : bool := match st with Take n => n =? 0 | _ => false end.

(** each of a chain, the last stage first. *)
Fixpoint each {V} (p : list (stage V)) : forall S : Type, (S -> V -> S * bool) -> S -> list V -> S * bool * nat :=
  match p with
  | [] => fun S k s l => each_src k s l
  | st :: up => fun S k s l =>
      if idle st then (s, false, O)
      else
        let blk := fun '(q, s, out) v =>
          let '(q', vs, brk) := body st q v in
          let '(s', stop) := push k s vs in
          if stop then ((q', s', true), true) else ((q', s', false), brk) in
        let '((_, s', out), _, n) := each up (vars V * S * bool)%type blk (init st, s, false) l in
        (s', out, n)
  end.

(** force and to_a; the number is that of the elements asked of the source. *)
Definition force {V} (p : list (stage V)) (l : list V) : list V * nat :=
  let '(acc, _, n) := each p (list V) (fun acc v => (acc ++ [v], false)) [] l in (acc, n).

(** first(n) and first *)
Definition first_n {V} (p : list (stage V)) (n : nat) (l : list V) : list V * nat :=
  if Nat.eqb n 0 then ([], O)
  else
    let '(acc, _, m) :=
      each p (list V) (fun acc v => let acc := acc ++ [v] in (acc, Nat.leb n (length acc))) [] l in
    (acc, m).
Definition first {V} (p : list (stage V)) (l : list V) : option V * nat :=
  let '(o, _, m) := each p (option V) (fun _ v => (Some v, true)) None l in (o, m).

(** The size, on demand: None is nil. *)
Inductive size := Count (n : Z) | Infinity.
Fixpoint lsize {V} (p : list (stage V)) (src : option size) : option size :=
  match p with
  | [] => src
  | st :: up =>
      let sz := lsize up src in
      match st with
      | Map _ | Zip _ _ => sz
      | Take n =>
          match sz with
          | None => None
          | Some (Count c) => if c <? n then sz else Some (Count n)
          | Some Infinity => Some (Count n)
          end
      | Drop n =>
          match sz with
          | Some (Count c) => Some (Count (if c - n <? 0 then 0 else c - n))
          | _ => sz
          end
      | _ => None
      end
  end.
