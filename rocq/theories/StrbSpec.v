(** What Ruby says of these methods of String. *)
From Coq Require Import ZArith List Bool.
From Verif Require Import StrbModel.
Import ListNotations.
Local Open Scope Z_scope.

(** insert puts o into the gap: gap z has z characters before it, gap -1 is the last one. The index in Ruby's message
    is the one given, plus one if it is negative. *)
Definition ruby_insert (s : str) (z : Z) (o : str) : ins :=
  let size := Z.of_nat (length s) in
  if (0 <=? z) && (z <=? size) then Good (firstn (Z.to_nat z) s ++ o ++ skipn (Z.to_nat z) s)
  else if (z <? 0) && (- size - 1 <=? z) then
    let n := Z.to_nat (size + 1 + z) in Good (firstn n s ++ o ++ skipn n s)
  else Bad (if z <? 0 then z + 1 else z).

(** concat and prepend take the value that the receiver has at the call. *)
Definition ruby_concat (s : str) (args : list arg) : str := s ++ flat_map (value s) args.
Definition ruby_prepend (s : str) (args : list arg) : str := flat_map (value s) args ++ s.

(** sep occurs in s with a before it. *)
Definition occurs (s sep a : str) : Prop := exists c, s = a ++ sep ++ c.
