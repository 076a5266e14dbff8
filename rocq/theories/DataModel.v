(** Data.

    Modelled: /repo/monoruby/builtins/data.rb:42-167 (initialize, to_h without a block, with,
    deconstruct_keys, __data_alloc_init, __data_values, __data_key). Keys, values and
    results are those of StructModel. A Hash is a list of pairs in order of insertion.
    The members of a class are distinct (define, data.rb:19-23). Objects of
    to_str as keys are not modelled. *)
From Coq Require Import ZArith List Bool.
From Verif Require Import StructModel.
Import ListNotations.
Local Open Scope Z_scope.

Definition hash := list (Z * val).

(** h[k] = v *)
Fixpoint store (h : hash) (k : Z) (v : val) : hash :=
  match h with
  | [] => [(k, v)]
  | (x, w) :: r => if x =? k then (x, v) :: r else (x, w) :: store r k v
  end.
Fixpoint fetch (h : hash) (k : Z) : option val :=
  match h with [] => None | (x, w) :: r => if x =? k then Some w else fetch r k end.

(** __data_key, data.rb:153-166: the Symbol of a key. *)
Definition data_key (k : key) : res Z :=
  match k with KSym m | KStr m => Val m | KObj _ => Raise TypeErr end.

(** The loop of __data_values, data.rb:131-138: the Hash of known members, and
    whether there was an unknown one. *)
Fixpoint normalize (ms : list Z) (kw : list (key * val)) (norm : hash) (unknown : bool) : res (hash * bool) :=
  match kw with
  | [] => Val (norm, unknown)
  | (k, v) :: r =>
      bind (data_key k) (fun m =>
        if is_member ms m then normalize ms r (store norm m v) unknown else normalize ms r norm true)
  end.

Definition value (h : hash) (m : Z) : val := match fetch h m with Some v => v | None => VNil end.
Definition has (h : hash) (m : Z) : bool := match fetch h m with Some _ => true | None => false end.

(** __data_values, data.rb:128-149. *)
Definition data_values (ms : list Z) (kw : list (key * val)) : res (list val) :=
  bind (normalize ms kw [] false) (fun p =>
    if forallb (has (fst p)) ms then
      if snd p then Raise ArgErr else Val (map (value (fst p)) ms)
    else Raise ArgErr).

(** A class: its members and its initialize, which a program may redefine. The
    result of initialize is the slots that it sets. *)
Record dclass := mkD { dmembers : list Z; init : list (key * val) -> res (list val) }.
(** A class as define makes it. *)
Definition base (ms : list Z) : dclass := mkD ms (data_values ms).

Definition syms (h : hash) : list (key * val) := map (fun e => (KSym (fst e), snd e)) h.

(** __data_alloc_init, data.rb:112-124. *)
Definition data_new (c : dclass) (args : list val) (kw : list (key * val)) : res (list val) :=
  match args with
  | [] => init c kw
  | _ =>
      match kw with
      | [] => if Nat.eqb (length args) (length (dmembers c)) then init c (syms (combine (dmembers c) args)) else Raise ArgErr
      | _ => Raise ArgErr
      end
  end.

(** to_h, data.rb:48-53. *)
Definition data_h (ms : list Z) (slots : list val) : hash := combine ms slots.

(** with, data.rb:68-75. The keys of the merged Hash are Symbols, or other objects. *)
Fixpoint merge (h : hash) (kw : list (key * val)) (rest : list (key * val)) : list (key * val) :=
  match kw with
  | [] => syms h ++ rest
  | (KSym m, v) :: r | (KStr m, v) :: r => merge (store h m v) r rest
  | (KObj n, v) :: r => merge h r (rest ++ [(KObj n, v)])
  end.
Definition data_with (c : dclass) (slots : list val) (kw : list (key * val)) : res (list val) :=
  match kw with [] => Val slots | _ => init c (merge (data_h (dmembers c) slots) kw []) end.

(** deconstruct_keys of an Array, data.rb:85-110; read is what the readers
    answer. The keys of the result are those given. *)
Fixpoint dec_loop (ms : list Z) (read : Z -> val) (keys : list key) : res (list (key * val)) :=
  match keys with
  | [] => Val []
  | k :: r =>
      bind (data_key k) (fun m =>
        if is_member ms m then bind (dec_loop ms read r) (fun h => Val ((k, read m) :: h)) else Val [])
  end.
Definition deconstruct_keys (ms : list Z) (read : Z -> val) (keys : list key) : res (list (key * val)) :=
  if Nat.ltb (length ms) (length keys) then Val [] else dec_loop ms read keys.
