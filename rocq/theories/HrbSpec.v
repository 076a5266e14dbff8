(** Hashes as finite maps with an order of keys. *)
From Coq Require Import ZArith List Bool.
From Verif Require Import StructModel DataModel HrbModel.
Import ListNotations.
Local Open Scope Z_scope.

Definition good (h : hash) : Prop := NoDup (keys h).

(** The value of the last pair whose new key is m. *)
Fixpoint last_of (g : Z -> Z) (h : hash) (m : Z) : option val :=
  match h with
  | [] => None
  | (k, v) :: r => match last_of g r m with Some w => Some w | None => if g k =? m then Some v else None end
  end.

(** A list without what was seen before. *)
Fixpoint firsts (seen : list Z) (l : list Z) : list Z :=
  match l with
  | [] => []
  | x :: r => if mem x seen then firsts seen r else x :: firsts (seen ++ [x]) r
  end.

(** The first entry with the least value. *)
Definition least (f : Z * val -> Z) (h : hash) (e : Z * val) : Prop :=
  exists before after, h = before ++ e :: after /\ (forall x, In x before -> f e < f x) /\ (forall x, In x after -> f e <= f x).

(** Ruby's min_by: compares with the best so far, whatever that is. *)
Fixpoint ruby_min_loop (f : Z * val -> option Z) (h : hash) (entry : Z * val) : res (option (Z * val)) :=
  match h with
  | [] => Val (Some entry)
  | e :: r =>
      match spaceship (f e) (f entry) with
      | Some Lt => ruby_min_loop f r e
      | Some _ => ruby_min_loop f r entry
      | None => Raise ArgErr
      end
  end.
Definition ruby_min_by (f : Z * val -> option Z) (h : hash) : res (option (Z * val)) :=
  match h with [] => Val None | e :: r => ruby_min_loop f r e end.
