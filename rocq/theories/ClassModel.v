(** Classes and modules: the superclass chains and what include and prepend do to
    them.  monoruby/src/value/rvalue/module.rs, globals/store/class.rs and
    globals/store.rs.

    A heap of nodes; a [Module] value is the address of its node.  A class or a
    module is represented by its head node, an included or prepended module by an
    iclass node with the id of the module.  The id of a class is its index in the
    class table.

    Not modelled: Class.allocate followed by initialize, [Module#dup]. *)
From Coq Require Import ZArith List Bool.
Import ListNotations.
Open Scope Z_scope.

(** module.rs:219-231 [ModuleInner].  [nmod]: the object type is MODULE, which it
    also is for an iclass (rvalue.rs:1824-1830). *)
Record node := mkn {
  nid : Z; nsup : option nat; norg : option nat; nic : bool; nmod : bool; nsing : bool }.
Definition heap := list node.
Definition null : node := mkn (-1) None None false false false.
Definition at_ (h : heap) (a : nat) : node := nth a h null.
Definition sup (h : heap) (a : nat) : option nat := nsup (at_ h a).
Definition idof (h : heap) (a : nat) : Z := nid (at_ h a).

Fixpoint set_at (h : heap) (a : nat) (n : node) : heap :=
  match h, a with
  | [], _ => []
  | _ :: t, O => n :: t
  | x :: t, S a' => x :: set_at t a' n
  end.
Definition set_sup (n : node) (s : option nat) : node := mkn (nid n) s (norg n) (nic n) (nmod n) (nsing n).
Definition set_org (n : node) (o : option nat) : node := mkn (nid n) (nsup n) o (nic n) (nmod n) (nsing n).

(** [while let Some(superclass) = module.superclass()]: the nodes above [a]. *)
Fixpoint supers (fuel : nat) (h : heap) (a : nat) : list nat :=
  match fuel with
  | O => []
  | S k => match sup h a with None => [] | Some b => b :: supers k h b end
  end.
Definition above (h : heap) (a : nat) : list nat := supers (length h) h a.

(** module.rs:21-29 [is_ancestor_of]. *)
Definition is_ancestor_of (h : heap) (i : Z) (a : nat) : bool :=
  existsb (fun x => idof h x =? i) (above h a).

(** module.rs:113-132 [is_ancestor_of_before_origin]. *)
Fixpoint until (o : option nat) (l : list nat) : list nat :=
  match l with
  | [] => []
  | x :: t => if match o with Some y => Nat.eqb x y | None => false end then [] else x :: until o t
  end.
Definition before_origin (h : heap) (a : nat) : list nat := until (norg (at_ h a)) (above h a).
Definition is_ancestor_before (h : heap) (i : Z) (a : nat) : bool :=
  existsb (fun x => idof h x =? i) (before_origin h a).

(** module.rs:134-137 [include]: a new iclass between [base] and its superclass. *)
Definition insert (h : heap) (base : nat) (i : Z) : heap :=
  set_at h base (set_sup (at_ h base) (Some (length h))) ++ [mkn i (sup h base) None true true false].

(** module.rs:142-155 [check_cyclic]. *)
Fixpoint modules (h : heap) (l : list nat) : list nat :=
  match l with [] => [] | x :: t => if nmod (at_ h x) then x :: modules h t else [] end.
Definition check_cyclic (h : heap) (self m : nat) : bool :=
  (idof h m =? idof h self) || existsb (fun x => idof h x =? idof h self) (modules h (above h m)).

(** The outcome: the new heap; ArgumentError; [unwrap] of None. *)
Inductive outcome := Done (h : heap) | Cyclic (h : heap) | Panic | Fuel.

(** module.rs:74-103, the loop of [include_or_prepend_module]. *)
Fixpoint loop (fuel : nat) (prep : bool) (h : heap) (self base m : nat) : outcome :=
  match fuel with
  | O => Fuel
  | S k =>
      let i := idof h m in
      let present := if prep then is_ancestor_before h i self else is_ancestor_of h i self in
      let h1 := if present then h else insert h base i in
      match sup h1 base with
      | None => Panic
      | Some base1 =>
          match sup h1 m with
          | Some m1 => if nic (at_ h1 m1) then loop k prep h1 self base1 m1 else Done h1
          | None => Done h1
          end
      end
  end.

(** module.rs:46-104 [include_or_prepend_module]; the version counters are in
    LookupModel.v. *)
Definition include_or_prepend (prep : bool) (h : heap) (self m : nat) : outcome :=
  if check_cyclic h self m then Cyclic h
  else match norg (at_ h m) with
       | Some _ =>
           match sup h m with
           | Some m1 => if nic (at_ h m1) then loop (S (length h)) prep h self self m1 else Done h
           | None => Done h
           end
       | None => loop (S (length h)) prep h self self m
       end.
(** module.rs:42-44. *)
Definition include_module (h : heap) (self m : nat) : outcome := include_or_prepend false h self m.

(** module.rs:177-184 [prepend_module]. *)
Definition make_origin (h : heap) (self : nat) : heap :=
  match norg (at_ h self) with
  | Some _ => h
  | None => let h1 := insert h self (idof h self) in
            set_at h1 self (set_org (at_ h1 self) (Some (length h)))
  end.
Definition prepend_module (h : heap) (self m : nat) : outcome := include_or_prepend true (make_origin h self) self m.

(** * The class table *)
(** [tbl]: the head nodes, by id. *)
Record state := mks { hp : heap; tbl : list nat }.
Definition head (s : state) (i : Z) : nat := nth (Z.to_nat i) (tbl s) O.

(** class.rs:1472-1493, the walk of [propagate_prepend_to_subclasses]: the
    predecessor of the first iclass of [base], if [pid] has not been seen before. *)
Fixpoint find_base (h : heap) (o : option nat) (pid bid : Z) (seen : bool) (prev : nat) (l : list nat) : option nat :=
  match l with
  | [] => None
  | cur :: t =>
      let seen' := seen || (nic (at_ h cur) && (idof h cur =? pid)) in
      if nic (at_ h cur) && (idof h cur =? bid) then (if seen' then None else Some prev)
      else if match o with Some y => Nat.eqb cur y | None => false end then None
      else find_base h o pid bid seen' cur t
  end.
(** class.rs:1435-1509. *)
Definition propagate1 (pid bid : Z) (h : heap) (c : nat) : heap :=
  match find_base h (norg (at_ h c)) pid bid false c (above h c) with
  | Some prev => insert h prev pid
  | None => h
  end.
Definition candidates (s : state) (bid : Z) : list nat :=
  filter (fun a => negb (nic (at_ (hp s) a)) && negb (nsing (at_ (hp s) a)) && negb (idof (hp s) a =? bid)) (tbl s).
Definition propagate (s : state) (bid pid : Z) : state :=
  mks (fold_left (propagate1 pid bid) (candidates s bid) (hp s)) (tbl s).

(** The operations.  [builtins/module.rs] checks that the argument of include and
    prepend is a module. *)
Definition is_plain_module (h : heap) (a : nat) : bool := nmod (at_ h a) && negb (nic (at_ h a)).
Definition is_class (h : heap) (a : nat) : bool := negb (nmod (at_ h a)).
Definition defined (s : state) (i : Z) : bool := (0 <=? i) && (i <? Z.of_nat (length (tbl s))).

Inductive op :=
| NewClass (super : Z) (singleton : bool)
| NewModule
| Include (self m : Z)
| Prepend (self m : Z).

Inductive result := State (s : state) | Raised (s : state) | Crashed | NoFuel.

(** 0: BasicObject, 1: Object, 2: Kernel. *)
Definition OBJECT : Z := 1.
Definition new_node (s : state) (n : node) : state := mks (hp s ++ [n]) (tbl s ++ [length (hp s)]).
Definition step (s : state) (o : op) : result :=
  match o with
  | NewClass p sg =>
      if defined s p && is_class (hp s) (head s p) then
        State (new_node s (mkn (Z.of_nat (length (tbl s))) (Some (head s p)) None false false sg))
      else Raised s
  | NewModule =>
      State (new_node s (mkn (Z.of_nat (length (tbl s))) (Some (head s OBJECT)) None false true false))
  | Include c m =>
      if defined s c && defined s m && is_plain_module (hp s) (head s m) then
        match include_module (hp s) (head s c) (head s m) with
        | Done h => State (mks h (tbl s))
        | Cyclic h => Raised (mks h (tbl s))
        | Panic => Crashed
        | Fuel => NoFuel
        end
      else Raised s
  | Prepend c m =>
      if defined s c && defined s m && is_plain_module (hp s) (head s m) then
        match prepend_module (hp s) (head s c) (head s m) with
        | Done h => State (propagate (mks h (tbl s)) c m)
        | Cyclic h => Raised (mks h (tbl s))
        | Panic => Crashed
        | Fuel => NoFuel
        end
      else Raised s
  end.

Definition init : state :=
  mks [mkn 0 None None false false false; mkn 1 (Some 3%nat) None false false false;
       mkn 2 (Some 1%nat) None false true false; mkn 2 (Some 0%nat) None true true false] [0; 1; 2]%nat.

(** * Module#ancestors: store.rs:319-379 *)
Fixpoint rendered (h : heap) (cls : bool) (l : list nat) : list Z :=
  match l with
  | [] => []
  | x :: t =>
      if negb cls && negb (nmod (at_ h x)) && negb (nic (at_ h x)) then []
      else (if nic (at_ h x) then [idof h x] else match norg (at_ h x) with None => [idof h x] | Some _ => [] end)
           ++ rendered h cls t
  end.
Definition ancestors (s : state) (i : Z) : list Z :=
  let a := head s i in
  match norg (at_ (hp s) a) with None => [idof (hp s) a] | Some _ => [] end
  ++ rendered (hp s) (negb (nmod (at_ (hp s) a))) (above (hp s) a).
