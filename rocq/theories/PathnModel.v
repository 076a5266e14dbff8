(** Pathname: cleanpath, +, join, parent and relative_path_from.

    Modelled: /repo/monoruby/builtins/pathname_builtins.rb:415-438 (cleanpath_aggressive), 474-499 (cleanpath_conservative),
    505-507 (parent), 671-710 (plus), 725-735 (join) and 826-861 (relative_path_from). A path is whether it begins with a separator, and its names in order, as chop_basename takes
    them off; a name is ., .. or another. Not modelled: the spelling of the separators, and the String methods below. *)
From Coq Require Import ZArith List Bool.
Import ListNotations.

Inductive name := Dot | DotDot | Nm (z : Z).
Record path := P { absolute : bool; names : list name }.

Definition is_dotdot (n : name) : bool := match n with DotDot => true | _ => false end.
Definition is_dot (n : name) : bool := match n with Dot => true | _ => false end.
Definition same (a b : name) : bool :=
  match a, b with
  | Dot, Dot | DotDot, DotDot => true
  | Nm x, Nm y => Z.eqb x y
  | _, _ => false
  end.

Fixpoint shift_while (f : name -> bool) (ns : list name) : list name :=
  match ns with
  | n :: r => if f n then shift_while f r else ns
  | [] => []
  end.

(** One round of cleanpath_aggressive, from the last name to the first. *)
Definition clean_step (base : name) (ns : list name) : list name :=
  match base with
  | Dot => ns
  | DotDot => DotDot :: ns
  | Nm z => match ns with DotDot :: r => r | _ => Nm z :: ns end
  end.
Definition clean_names (p : path) : list name :=
  let ns := fold_right clean_step [] (names p) in
  if absolute p then shift_while is_dotdot ns else ns.

(** File.dirname of an empty prefix is "." *)
Definition dot_if_empty (p : path) : path :=
  match absolute p, names p with false, [] => P false [Dot] | _, _ => p end.
Definition cleanpath (p : path) : path := dot_if_empty (P (absolute p) (clean_names p)).

(** The loop of plus; the names of the first path are in reverse. *)
Fixpoint plus_loop (r1 l2 : list name) : list name * list name :=
  let l2 := shift_while is_dot l2 in
  match r1 with
  | [] => ([], l2)
  | b :: r =>
      if is_dot b then plus_loop r l2
      else
        match b, l2 with
        | Nm _, DotDot :: t => plus_loop r t
        | _, _ => (r1, l2)
        end
  end.
Definition plus (p1 p2 : path) : path :=
  if absolute p2 then p2
  else
    match plus_loop (rev (names p1)) (names p2) with
    | (r1, l2) =>
        let l2 := match r1 with
                  | [] => if absolute p1 then shift_while is_dotdot l2 else l2
                  | _ => l2
                  end in
        dot_if_empty (P (absolute p1) (rev r1 ++ l2))
    end.

(** The names that both begin with are taken off. *)
Fixpoint strip (d b : list name) : list name * list name :=
  match d, b with
  | x :: d', y :: b' => if same x y then strip d' b' else (d, b)
  | _, _ => (d, b)
  end.
(** relative_path_from; None is ArgumentError. *)
Definition relative_path_from (dest base : path) : option path :=
  let d := cleanpath dest in
  let b := cleanpath base in
  let no_dots := filter (fun n => negb (is_dot n)) in
  if Bool.eqb (absolute d) (absolute b) then
    match strip (no_dots (names d)) (no_dots (names b)) with
    | (dn, bn) =>
        if existsb is_dotdot bn then None
        else Some (dot_if_empty (P false (map (fun _ => DotDot) bn ++ dn)))
    end
  else None.

(** cleanpath(true): cleanpath_conservative. A separator at the end is not modelled; a . at the end is. *)
Definition cleanpath_conservative (p : path) : path :=
  let ns := filter (fun n => negb (is_dot n)) (names p) in
  let ns := if absolute p then shift_while is_dotdot ns else ns in
  match ns with
  | [] => dot_if_empty (P (absolute p) [])
  | _ =>
      let ns := if negb (is_dotdot (last ns Dot)) && is_dot (last (names p) DotDot) then ns ++ [Dot] else ns in
      P (absolute p) ns
  end.

(** parent *)
Definition parent (p : path) : path := plus p (P false [DotDot]).

(** join; the arguments before the last one are in reverse. *)
Fixpoint join_loop (self : path) (args : list path) (result : path) : path :=
  if absolute result then result
  else match args with
       | [] => plus self result
       | a :: r => join_loop self r (plus a result)
       end.
Definition join (self : path) (args : list path) : path :=
  match rev args with
  | [] => self
  | result :: r => join_loop self r result
  end.
