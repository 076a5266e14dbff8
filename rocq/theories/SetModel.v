(** Set.

    Modelled, all in /repo/monoruby/src/builtins/set.rs: 72-84
    (compare_by_identity), 100-172 (new sets, elements of an argument), 207-258
    (Set.[], add, add?), 261-271 (include?), 312-340 (delete, delete?),
    409-622 (dup, merge, subtract, replace, and the operators), 631-894
    (comparisons, disjoint?, intersect?), 909-1084 (delete_if, keep_if,
    select!, reject!, collect!), 1361-1401 (divide with one argument),
    1412-1416 (reset), 1425-1447 (hash); and /repo/monoruby/builtins/set.rb:4-23
    (initialize).

    A Set is a Hash whose values are true; the Hash is the insertion-ordered
    list of its keys (C09, C10). Blocks are pure functions. No set is
    frozen or being iterated. *)
From Coq Require Import ZArith List Bool.
From Verif Require Import EnblModel.
Import ListNotations.
Local Open Scope Z_scope.

(** Objects with the equality of Hash keys (eql? and hash, which agree, C44)
    and identity. *)
Record objects := mkO {
  V :> Type;
  eql : V -> V -> bool;
  same : V -> V -> bool;
  eql_refl : forall a, eql a a = true;
  eql_sym : forall a b, eql a b = true -> eql b a = true;
  eql_trans : forall a b c, eql a b = true -> eql b c = true -> eql a c = true;
  same_eq : forall a b, same a b = true <-> a = b }.
Arguments eql {o}. Arguments same {o}.

(** The class of a set (0 is Set), whether it compares by identity, and its
    elements. *)
Record set (O : objects) := mkS { cls : Z; ident : bool; els : list (V O) }.
Arguments mkS {O}. Arguments cls {O}. Arguments ident {O}. Arguments els {O}.

Definition rel {O : objects} (i : bool) (a b : V O) : bool := if i then same a b else eql a b.

(** contains_key *)
Definition mem {O : objects} (i : bool) (l : list (V O)) (v : V O) : bool :=
  existsb (fun k => rel i k v) l.
Definition has {O} (s : set O) (v : V O) : bool := mem (ident s) (els s) v.

(** Hash#insert: an element that is there keeps its place. *)
Definition ins {O : objects} (i : bool) (l : list (V O)) (v : V O) : list (V O) :=
  if mem i l v then l else l ++ [v].
Definition ins_all {O : objects} (i : bool) (l vs : list (V O)) : list (V O) :=
  fold_left (ins i) vs l.
Definition add {O} (s : set O) (v : V O) : set O := mkS (cls s) (ident s) (ins (ident s) (els s) v).
Definition add_all {O} (s : set O) (vs : list (V O)) : set O :=
  mkS (cls s) (ident s) (ins_all (ident s) (els s) vs).

(** Hash#remove *)
Definition rem {O : objects} (i : bool) (l : list (V O)) (v : V O) : list (V O) :=
  filter (fun k => negb (rel i k v)) l.
Definition delete {O} (s : set O) (v : V O) : set O := mkS (cls s) (ident s) (rem (ident s) (els s) v).

(** set.rs:100-117 *)
Definition new_empty {O} : set O := mkS 0 false [].
Definition new_like {O} (m : set O) : set O := mkS 0 (ident m) [].
(** set.rs:120-131 *)
Definition from_iter {O} (vs : list (V O)) : set O := add_all new_empty vs.

(** set.rs:236-250: None is nil. *)
Definition add_q {O} (s : set O) (v : V O) : set O * bool :=
  if has s v then (s, false) else (add s v, true).
(** set.rs:327-340: remove says whether it was there. *)
Definition delete_q {O} (s : set O) (v : V O) : set O * bool :=
  if has s v then (delete s v, true) else (s, false).

(** Set.[] (set.rs:207-210) called on the class [c], and Set.new (175-194 and
    set.rb:4-23). *)
Definition set_index {O} (c : Z) (vs : list (V O)) : set O := from_iter vs.
Definition set_new {O} (c : Z) (vs : list (V O)) : set O := add_all (mkS c false []) vs.

(** What a method is given: a Set, another finite enumeration, an endless one,
    one whose each raises, something that is not enumerable. *)
Inductive arg (O : objects) :=
| ASet (s : set O) | AEnum (l : list (V O)) | AEndless (f : nat -> V O) | ARaise (e : exn) | AOther.
Arguments ASet {O}. Arguments AEnum {O}. Arguments AEndless {O}. Arguments ARaise {O}. Arguments AOther {O}.

(** enum_to_vec, set.rs:143-162 *)
Definition elems {O} (a : arg O) : res (list (V O)) :=
  match a with
  | ASet s => Val (els s)
  | AEnum l => Val l
  | AEndless _ => Forever
  | ARaise e => Raise e
  | AOther => Raise ArgErr
  end.

Definition with_elems {O} {A} (a : arg O) (f : list (V O) -> A) : res A :=
  match elems a with Val l => Val (f l) | Raise e => Raise e | Forever => Forever end.

(** dup, set.rs:409-417: the elements go through a set that compares with
    eql?. *)
Definition dup {O} (s : set O) : set O :=
  let n := from_iter (els s) in
  if ident s then mkS (cls n) true (ins_all true [] (els n)) else n.

(** compare_by_identity, set.rs:72-84: the table is built anew. *)
Definition by_identity {O} (s : set O) : set O := mkS (cls s) true (ins_all true [] (els s)).

(** merge (set.rs:426-440) with one argument; subtract (447-457); replace
    (464-488) *)
Definition merge {O} (s : set O) (a : arg O) : res (set O) := with_elems a (add_all s).
Definition subtract {O} (s : set O) (a : arg O) : res (set O) :=
  with_elems a (fun l => mkS (cls s) (ident s) (fold_left (rem (ident s)) l (els s))).
Definition replace {O} (s : set O) (a : arg O) : res (set O) :=
  let i := match a with ASet t => ident t | _ => ident s end in
  with_elems a (fun l => add_all (mkS (cls s) i []) l).

(** The operators, set.rs:496-622 *)
Definition intersection {O} (s : set O) (a : arg O) : res (set O) :=
  with_elems a (fun l =>
    let other := add_all (new_like s) l in
    add_all new_empty (filter (has other) (els s))).
Definition union {O} (s : set O) (a : arg O) : res (set O) :=
  with_elems a (fun l => add_all (add_all (new_like s) (els s)) l).
Definition difference {O} (s : set O) (a : arg O) : res (set O) :=
  with_elems a (fun l =>
    let other := add_all (new_like s) l in
    add_all (new_like s) (filter (fun k => negb (has other k)) (els s))).
Definition symmetric {O} (s : set O) (a : arg O) : res (set O) :=
  with_elems a (fun l =>
    let other := add_all (new_like s) l in
    let r := add_all (new_like s) (filter (fun k => negb (has other k)) (els s)) in
    add_all r (filter (fun k => negb (has s k)) (els other))).

(** The comparisons of two sets, set.rs:631-810 *)
Definition within {O} (s t : set O) : bool := forallb (has t) (els s).
Definition set_eq {O} (s t : set O) : bool :=
  Bool.eqb (ident s) (ident t) && Nat.eqb (length (els s)) (length (els t)) && within s t.
Definition subset {O} (s t : set O) : bool :=
  negb (Nat.ltb (length (els t)) (length (els s))) && within s t.
Definition superset {O} (s t : set O) : bool :=
  negb (Nat.ltb (length (els s)) (length (els t))) && within t s.
Definition proper_subset {O} (s t : set O) : bool :=
  negb (Nat.leb (length (els t)) (length (els s))) && within s t.
Definition proper_superset {O} (s t : set O) : bool :=
  negb (Nat.leb (length (els s)) (length (els t))) && within t s.
Definition spaceship {O} (s t : set O) : option Z :=
  match within s t, within t s with
  | true, true => Some 0
  | true, false => Some (-1)
  | false, true => Some 1
  | false, false => None
  end.

(** intersect? (set.rs:866-894) and disjoint? (824-852): any failure to
    enumerate becomes ArgumentError. *)
Definition intersect_q {O} (s : set O) (a : arg O) : res bool :=
  match a with
  | ASet t => Val (if Nat.leb (length (els s)) (length (els t)) then existsb (has t) (els s)
                   else existsb (has s) (els t))
  | _ => match elems a with
         | Val l => Val (existsb (has s) l)
         | Raise _ => Raise ArgErr
         | Forever => Forever
         end
  end.
Definition disjoint_q {O} (s : set O) (a : arg O) : res bool :=
  match a with
  | ASet t => Val (negb (if Nat.leb (length (els s)) (length (els t)) then existsb (has t) (els s)
                         else existsb (has s) (els t)))
  | _ => match elems a with
         | Val l => Val (negb (existsb (has s) l))
         | Raise _ => Raise ArgErr
         | Forever => Forever
         end
  end.

(** delete_if, keep_if (set.rs:909-965): the elements to delete are collected
    first. select! and reject! (977-1038) also say whether there were any. *)
Definition drop_all {O} (s : set O) (vs : list (V O)) : set O :=
  mkS (cls s) (ident s) (fold_left (rem (ident s)) vs (els s)).
Definition delete_if {O} (p : V O -> bool) (s : set O) : set O := drop_all s (filter p (els s)).
Definition keep_if {O} (p : V O -> bool) (s : set O) : set O :=
  drop_all s (filter (fun k => negb (p k)) (els s)).
Definition reject_bang {O} (p : V O -> bool) (s : set O) : set O * bool :=
  match filter p (els s) with [] => (s, false) | d => (drop_all s d, true) end.
Definition select_bang {O} (p : V O -> bool) (s : set O) : set O * bool :=
  match filter (fun k => negb (p k)) (els s) with [] => (s, false) | d => (drop_all s d, true) end.

(** collect!, set.rs:1051-1084 *)
Definition collect_bang {O} (f : V O -> V O) (s : set O) : set O :=
  add_all (mkS (cls s) false []) (map f (els s)).

(** divide with one argument, set.rs:1361-1401: the elements of the groups; the
    group is found by the identity of what the block gives. *)
Definition divide {O} (f : V O -> V O) (s : set O) : list (list (V O)) :=
  map snd (group_by same f (els s)).

(** hash, set.rs:1425-1447; [h] is the digest of an element. *)
Definition set_hash {O} (h : V O -> Z) (s : set O) : Z :=
  fold_left (fun acc k => Z.lxor acc (h k)) (els s) 103860485912039.

(** The table below, for a set whose elements may change: each entry has the
    hash it was entered with. *)
Definition found {O : objects} (h : V O -> Z) (t : list (Z * V O)) (v : V O) : bool :=
  existsb (fun e => (fst e =? h v) && eql (snd e) v) t.
(** reset, set.rs:1412-1416, does nothing. *)
Definition reset {O : objects} (t : list (Z * V O)) : list (Z * V O) := t.
