(** File.dirname.

    Modelled: /repo/monoruby/builtins/file.rb:91-124 (dirname with a level, _dirname_once). A path is a list of characters, which
    are Integers; conversions of the arguments are not modelled. The Regexps are the functions below. *)
From Coq Require Import ZArith List Bool.
Import ListNotations.
Local Open Scope Z_scope.

Definition slash : Z := 47.
Definition dot : Z := 46.
Definition is_slash (c : Z) : bool := c =? slash.

(** sub(%r{\A/+}, "") *)
Fixpoint lstrip (s : list Z) : list Z :=
  match s with
  | c :: r => if is_slash c then lstrip r else s
  | [] => []
  end.
(** sub(%r{/+\z}, "") *)
Definition rstrip (s : list Z) : list Z := rev (lstrip (rev s)).
(** The part of the reversed list behind its first slash: s[0...s.rindex("/")], reversed. *)
Fixpoint behind_slash (r : list Z) : option (list Z) :=
  match r with
  | [] => None
  | c :: r => if is_slash c then Some r else behind_slash r
  end.

Definition dirname_once (path : list Z) : list Z :=
  if negb (match path with [] => true | _ => false end) && forallb is_slash path then [slash]
  else
    match rstrip path with
    | [] => [dot]
    | s =>
        match behind_slash (rev s) with
        | None => [dot]
        | Some r =>
            match rstrip (rev r) with
            | [] => [slash]
            | c :: p => if is_slash c then slash :: lstrip (c :: p) else c :: p
            end
        end
    end.

Fixpoint eql (a b : list Z) : bool :=
  match a, b with
  | [], [] => true
  | x :: a, y :: b => (x =? y) && eql a b
  | _, _ => false
  end.
Fixpoint dirname_times (level : nat) (path : list Z) : list Z :=
  match level with
  | O => path
  | S level =>
      let result := dirname_once path in
      if eql result path then result else dirname_times level result
  end.
(** None is ArgumentError. *)
Definition dirname (path : list Z) (level : Z) : option (list Z) :=
  if level <? 0 then None else Some (dirname_times (Z.to_nat level) path).
