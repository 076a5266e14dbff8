(** Enumerable and Comparable.

    Modelled, all in /repo/monoruby/builtins: enumerable.rb:103-117
    (each_slice), 246-260 (take), 342-370 and 556-582 (min_by, max_by without
    n), 413-508 (chunk, chunk_while, slice_when), 510-533 (zip), 535-543
    (group_by), 608-637 (sum), 729-740 (each_cons), 742-830 (min, max, minmax
    without n), 838-862 (uniq), 887-900 (partition), 904-930 (minmax_by),
    958-1000 (cycle), 1050-1110 (slice_before, slice_after), and
    comparable.rb:1-105.

    The receiver is the list of the elements its each yields, one value each;
    blocks are pure functions. Enumerators (chunk and the slices) are the
    list of what they yield when they are run to the end. *)
From Coq Require Import ZArith List Bool Floats.SpecFloat.
From Verif Require Import IntModel AseqModel FintModel.
Import ListNotations.
Local Open Scope Z_scope.

Inductive exn := ArgErr | NoMethod | DomainErr | Other.
Inductive res (A : Type) := Val (a : A) | Raise (e : exn) | Forever.
Arguments Val {A}. Arguments Raise {A}. Arguments Forever {A}.

(* ------------------------------------------------------------------ *)
(** ** Slices *)

(** enumerable.rb:107-115: the slice being filled. *)
Fixpoint slice_go {A} (n : nat) (cur : list A) (l : list A) : list (list A) :=
  match l with
  | [] => match cur with [] => [] | _ => [cur] end
  | x :: r =>
      let cur := cur ++ [x] in
      if Nat.eqb (length cur) n then cur :: slice_go n [] r else slice_go n cur r
  end.

Definition each_slice {A} (n : Z) (l : list A) : res (list (list A)) :=
  if n <=? 0 then Raise ArgErr else Val (slice_go (Z.to_nat n) [] l).

(** The size of the receiver: an Integer or Float::INFINITY. *)
Inductive size := Count (n : Z) | Infinity.

(** (size.to_f / n).ceil of each_slice without a block (enumerable.rb:106);
    Float#ceil of a Float that is not finite raises FloatDomainError. *)
Definition each_slice_size (n : Z) (s : size) : res size :=
  if n <=? 0 then Raise ArgErr
  else
    let f := match s with Count k => f_of_Z k | Infinity => S754_infinity false end in
    let q := f_div f (f_of_Z n) in
    if fin q then Val (Count (f_ceil q)) else Raise DomainErr.

(** enumerable.rb:733-738 *)
Fixpoint cons_go {A} (n : nat) (buf : list A) (l : list A) : list (list A) :=
  match l with
  | [] => []
  | x :: r =>
      let buf := buf ++ [x] in
      let buf := if Nat.ltb n (length buf) then tl buf else buf in
      if Nat.eqb (length buf) n then buf :: cons_go n buf r else cons_go n buf r
  end.

Definition each_cons {A} (n : Z) (l : list A) : res (list (list A)) :=
  if n <=? 0 then Raise ArgErr else Val (cons_go (Z.to_nat n) [] l).

(** The key the block of chunk gives: nil or :_separator, :_alone, another
    Symbol that begins with an underscore, or any other object. *)
Inductive ckey (K : Type) := KSep | KAlone | KReserved | KKey (k : K).
Arguments KSep {K}. Arguments KAlone {K}. Arguments KReserved {K}. Arguments KKey {K}.

(** enumerable.rb:421-456. [cur] is the chunk being filled, if any (first is
    false). A chunk has its key, None for :_alone. The second component says
    whether a reserved Symbol was raised for. *)
Fixpoint chunk_go {A K} (keq : K -> K -> bool) (key : A -> ckey K)
    (cur : option (K * list A)) (l : list A) : list (option K * list A) * bool :=
  let flush := match cur with Some (k, a) => [(Some k, a)] | None => [] end in
  match l with
  | [] => (flush, false)
  | x :: r =>
      match key x with
      | KReserved => ([], true)
      | KSep => let '(o, e) := chunk_go keq key None r in (flush ++ o, e)
      | KAlone =>
          let '(o, e) := chunk_go keq key None r in (flush ++ (None, [x]) :: o, e)
      | KKey k =>
          match cur with
          | None => chunk_go keq key (Some (k, [x])) r
          | Some (k0, a) =>
              if keq k k0 then chunk_go keq key (Some (k0, a ++ [x])) r
              else let '(o, e) := chunk_go keq key (Some (k, [x])) r in (flush ++ o, e)
          end
      end
  end.

Definition chunk {A K} (keq : K -> K -> bool) (key : A -> ckey K) (l : list A) :=
  chunk_go keq key None l.

(** chunk_while (enumerable.rb:463-482) and slice_when (488-507): [cut prev x]
    says whether a new slice begins at x. *)
Fixpoint cut_go {A} (cut : A -> A -> bool) (cur : list A) (prev : A) (l : list A)
  : list (list A) :=
  match l with
  | [] => [cur]
  | x :: r => if cut prev x then cur :: cut_go cut [x] x r else cut_go cut (cur ++ [x]) x r
  end.

Definition chunk_while {A} (p : A -> A -> bool) (l : list A) : list (list A) :=
  match l with [] => [] | x :: r => cut_go (fun a b => negb (p a b)) [x] x r end.

Definition slice_when {A} (p : A -> A -> bool) (l : list A) : list (list A) :=
  match l with [] => [] | x :: r => cut_go p [x] x r end.

(** What slice_before and slice_after are given: a block, a pattern other
    than nil, or the pattern nil ([f] says nil === x). *)
Inductive bound (A : Type) := Block (f : A -> bool) | Pattern (f : A -> bool) | NilPattern (f : A -> bool).
Arguments Block {A}. Arguments Pattern {A}. Arguments NilPattern {A}.

(** pattern.nil? ? blk.call(x) : (pattern === x): without a block, blk is nil
    and nil.call raises NoMethodError. *)
Definition hit {A} (b : bound A) (x : A) : option bool :=
  match b with Block f => Some (f x) | Pattern f => Some (f x) | NilPattern _ => None end.

(** enumerable.rb:1064-1076 *)
Fixpoint before_go {A} (b : bound A) (cur : option (list A)) (l : list A) : res (list (list A)) :=
  match l with
  | [] => Val (match cur with Some c => [c] | None => [] end)
  | x :: r =>
      match hit b x with
      | None => Raise NoMethod
      | Some true =>
          match before_go b (Some [x]) r with
          | Val o => Val (match cur with Some c => c :: o | None => o end)
          | e => e
          end
      | Some false =>
          before_go b (Some (match cur with Some c => c ++ [x] | None => [x] end)) r
      end
  end.
Definition slice_before {A} (b : bound A) (l : list A) := before_go b None l.

(** enumerable.rb:1091-1102 *)
Fixpoint after_go {A} (b : bound A) (cur : list A) (l : list A) : res (list (list A)) :=
  match l with
  | [] => Val (match cur with [] => [] | _ => [cur] end)
  | x :: r =>
      match hit b x with
      | None => Raise NoMethod
      | Some true =>
          match after_go b [] r with Val o => Val ((cur ++ [x]) :: o) | e => e end
      | Some false => after_go b (cur ++ [x]) r
      end
  end.
Definition slice_after {A} (b : bound A) (l : list A) := after_go b [] l.

(* ------------------------------------------------------------------ *)
(** ** Selecting *)

(** take(n) and first(n) (enumerable.rb:246-260): the elements and how many
    the receiver was asked for. *)
Fixpoint take_go {A} (n : nat) (got : list A) (asked : nat) (l : list A) : list A * nat :=
  match l with
  | [] => (got, asked)
  | x :: r =>
      let got := got ++ [x] in
      if Nat.leb n (length got) then (got, S asked) else take_go n got (S asked) r
  end.

Definition take {A} (n : Z) (l : list A) : res (list A * nat) :=
  if n <? 0 then Raise ArgErr
  else if n =? 0 then Val ([], O)
  else Val (take_go (Z.to_nat n) [] O l).

(** enumerable.rb:887-900 *)
Fixpoint partition_go {A} (p : A -> bool) (yes no : list A) (l : list A) : list A * list A :=
  match l with
  | [] => (yes, no)
  | x :: r => if p x then partition_go p (yes ++ [x]) no r else partition_go p yes (no ++ [x]) r
  end.
Definition partition {A} (p : A -> bool) (l : list A) := partition_go p [] [] l.

(** A Hash in insertion order; h[k] = g(h[k]) *)
Fixpoint upsert {K V} (keq : K -> K -> bool) (k : K) (new : V) (g : V -> V) (h : list (K * V))
  : list (K * V) :=
  match h with
  | [] => [(k, new)]
  | (k0, v) :: r => if keq k0 k then (k0, g v) :: r else (k0, v) :: upsert keq k new g r
  end.

(** (h[key] ||= []) << x, enumerable.rb:535-543 *)
Definition group_by {A K} (keq : K -> K -> bool) (f : A -> K) (l : list A) : list (K * list A) :=
  fold_left (fun h x => upsert keq (f x) [x] (fun v => v ++ [x]) h) l [].

(** enumerable.rb:838-862 *)
Fixpoint uniq_go {A K} (keq : K -> K -> bool) (f : A -> K) (seen : list K) (l : list A) : list A :=
  match l with
  | [] => []
  | x :: r =>
      if existsb (fun k => keq k (f x)) seen then uniq_go keq f seen r
      else x :: uniq_go keq f (seen ++ [f x]) r
  end.
Definition uniq {A K} (keq : K -> K -> bool) (f : A -> K) (l : list A) := uniq_go keq f [] l.

(** min and max without n (enumerable.rb:742-768, 782-808): the new element
    replaces the kept one if [better] says so of x <=> m; nil raises [e]
    (ArgumentError; in min_by, max_by and minmax_by the nil is compared with
    0, which raises NoMethodError). *)
Fixpoint best_go {A K} (cmp : K -> K -> option Z) (better : Z -> bool) (e : exn) (key : A -> K)
    (m : A) (l : list A) : res (option A) :=
  match l with
  | [] => Val (Some m)
  | x :: r =>
      match cmp (key x) (key m) with
      | None => Raise e
      | Some c => best_go cmp better e key (if better c then x else m) r
      end
  end.
Definition best {A K} (cmp : K -> K -> option Z) (better : Z -> bool) (e : exn) (key : A -> K)
    (l : list A) : res (option A) :=
  match l with [] => Val None | x :: r => best_go cmp better e key x r end.

Definition min {A} (cmp : A -> A -> option Z) (l : list A) := best cmp (fun c => c <? 0) ArgErr (fun x => x) l.
Definition max {A} (cmp : A -> A -> option Z) (l : list A) := best cmp (fun c => 0 <? c) ArgErr (fun x => x) l.
Definition min_by {A K} (cmp : K -> K -> option Z) (f : A -> K) (l : list A) :=
  best cmp (fun c => c <? 0) NoMethod f l.
Definition max_by {A K} (cmp : K -> K -> option Z) (f : A -> K) (l : list A) :=
  best cmp (fun c => 0 <? c) NoMethod f l.

(** minmax with a block (enumerable.rb:811-827) and minmax_by (904-930): both
    in one pass. *)
Fixpoint both_go {A K} (cmp : K -> K -> option Z) (e : exn) (key : A -> K) (mn mx : A) (l : list A)
  : res (option (A * A)) :=
  match l with
  | [] => Val (Some (mn, mx))
  | x :: r =>
      match cmp (key x) (key mn) with
      | None => Raise e
      | Some c =>
          let mn := if c <? 0 then x else mn in
          match cmp (key x) (key mx) with
          | None => Raise e
          | Some c => both_go cmp e key mn (if 0 <? c then x else mx) r
          end
      end
  end.
Definition minmax {A} (cmp : A -> A -> option Z) (l : list A) :=
  match l with [] => Val None | x :: r => both_go cmp ArgErr (fun x => x) x x r end.
Definition minmax_by {A K} (cmp : K -> K -> option Z) (f : A -> K) (l : list A) :=
  match l with [] => Val None | x :: r => both_go cmp NoMethod f x x r end.

(** What is zipped with: a finite or an endless enumeration. *)
Inductive source (A : Type) := Finite (l : list A) | Endless (f : nat -> A).
Arguments Finite {A}. Arguments Endless {A}.

(** zip (enumerable.rb:510-533): the arguments are turned into arrays first,
    which does not end for an endless one; oa[i] is nil past the end. *)
Fixpoint to_arrays {A} (os : list (source A)) : res (list (list A)) :=
  match os with
  | [] => Val []
  | Finite l :: r => match to_arrays r with Val t => Val (l :: t) | e => e end
  | Endless _ :: _ => Forever
  end.
Fixpoint zip_go {A} (i : nat) (l : list A) (arrays : list (list A)) : list (list (option A)) :=
  match l with
  | [] => []
  | x :: r => (Some x :: map (fun oa => nth_error oa i) arrays) :: zip_go (S i) r arrays
  end.
Definition zip {A} (l : list A) (os : list (source A)) : res (list (list (option A))) :=
  match to_arrays os with Val arrays => Val (zip_go O l arrays) | Raise e => Raise e | Forever => Forever end.

(** cycle(n) (enumerable.rb:971-997): the first pass, then n - 1 from the
    cache. *)
Fixpoint times {A} (n : nat) (l : list A) : list A :=
  match n with O => [] | S k => l ++ times k l end.
Definition cycle {A} (n : Z) (l : list A) : list A :=
  if n <=? 0 then []
  else match l with [] => [] | _ => l ++ times (Z.to_nat (n - 1)) l end.

(** cycle without n, the block raising StopIteration at the [k]-th element it
    gets (from 0) of a receiver that is not empty: in the first pass it leaves
    the method, later [loop do] ends (enumerable.rb:962-970). *)
Inductive ended := Returned | Stopped.
Definition cycle_stop {A} (l : list A) (k : nat) : ended :=
  if Nat.ltb k (length l) then Stopped else Returned.

(* ------------------------------------------------------------------ *)
(** ** sum, enumerable.rb:608-637 *)

Inductive num := NI (z : Z) | NF (f : spec_float).

(** Integer#to_f and Float#to_f *)
Definition nfloat (n : num) : spec_float := match n with NI z => f_of_Z z | NF f => f end.

(** init + v *)
Definition nadd (a b : num) : num :=
  match a, b with NI x, NI y => NI (x + y) | _, _ => NF (f_add (nfloat a) (nfloat b)) end.

(** The lambda add: float_seen, init and c. *)
Record acc := mkA { seen : bool; total : num; comp : spec_float }.

Definition sum_add (s : acc) (v : num) : acc :=
  let s := match v with
           | NF _ => if seen s then s else mkA true (NF (nfloat (total s))) f_zero
           | NI _ => s
           end in
  match v with
  | NF f =>
      if seen s then
        let init := nfloat (total s) in
        let y := f_sub f (comp s) in
        let t := f_add init y in
        mkA true (NF t) (f_sub (f_sub t init) y)
      else mkA (seen s) (nadd (total s) v) (comp s)
  | NI _ => mkA (seen s) (nadd (total s) v) (comp s)
  end.

Definition sum (init : num) (l : list num) : num :=
  total (fold_left sum_add l (mkA (match init with NF _ => true | _ => false end) init f_zero)).

(* ------------------------------------------------------------------ *)
(** ** Comparable, comparable.rb:1-105 *)

(** What self <=> other does: nil, a number (its sign matters), another
    object, or an exception. *)
Inductive cres := CNil | CNum (z : Z) | COther | CRaise (e : exn).

(** comparable.rb:2-16; [same]: equal?(other) *)
Definition c_eq (same : bool) (c : cres) : res bool :=
  if same then Val true
  else match c with
       | CRaise NoMethod | CRaise ArgErr => Val false
       | CRaise e => Raise e
       | CNil => Val false
       | CNum z => Val (z =? 0)
       | COther => Raise ArgErr
       end.

(** The other operators, comparable.rb:18-72 *)
Definition c_op (f : Z -> bool) (c : cres) : res bool :=
  match c with
  | CRaise e => Raise e
  | CNil => Raise ArgErr
  | CNum z => Val (f z)
  | COther => Raise ArgErr
  end.
Definition c_ne := c_op (fun z => negb (z =? 0)).
Definition c_ge := c_op (fun z => 0 <=? z).
Definition c_gt := c_op (fun z => 0 <? z).
Definition c_le := c_op (fun z => z <=? 0).
Definition c_lt := c_op (fun z => z <? 0).

(** clamp (comparable.rb:74-101) with bounds that may be nil; [cmp a b] is
    a <=> b, None is nil. [excl]: the bounds are those of an exclusive
    range. *)
Definition clamp {A} (cmp : A -> A -> option Z) (self : A) (lo hi : option A) (excl : bool) : res A :=
  if match hi with Some _ => excl | None => false end then Raise ArgErr
  else if match lo, hi with
          | Some a, Some b => match cmp a b with None => true | Some c => 0 <? c end
          | _, _ => false
          end then Raise ArgErr
  else
    match (match lo with Some a => match cmp self a with None => Raise NoMethod | Some c => Val (c <? 0) end
                       | None => Val false end) with
    | Val true => match lo with Some a => Val a | None => Val self end
    | Val false =>
        match (match hi with Some b => match cmp self b with None => Raise NoMethod | Some c => Val (0 <? c) end
                           | None => Val false end) with
        | Val true => match hi with Some b => Val b | None => Val self end
        | Val false => Val self
        | Raise e => Raise e
        | Forever => Forever
        end
    | Raise e => Raise e
    | Forever => Forever
    end.

(** between? (comparable.rb:103-105) *)
Definition between {A} (cmp : A -> A -> option Z) (self lo hi : A) : res bool :=
  match cmp lo self with
  | None => Raise NoMethod
  | Some c =>
      if c <=? 0 then
        match cmp self hi with None => Raise NoMethod | Some c => Val (c <=? 0) end
      else Val false
  end.
