(** What is expected of a random generator. *)
From Coq Require Import ZArith List.
Import ListNotations.
Open Scope Z_scope.

Definition u32 (w : Z) : Prop := 0 <= w < 4294967296.
(** A number written in 32-bit words, most significant first. *)
Fixpoint number (ws : list Z) : Z :=
  match ws with [] => 0 | w :: t => w * 2 ^ (32 * Z.of_nat (length t)) + number t end.
(** Words served from a list. *)
Definition serve (ws : list Z) : Z * list Z := match ws with w :: t => (w, t) | [] => (0, []) end.

(** A live generator: each call continues where the previous one stopped. *)
Section L.
Variables (G C R : Type).
Variable step : C -> G -> option (R * G).
Fixpoint live (cs : list C) (g : G) : option (list R * G) :=
  match cs with
  | [] => Some ([], g)
  | c :: t => match step c g with
              | None => None
              | Some (a, g) => match live t g with None => None | Some (l, g) => Some (a :: l, g) end
              end
  end.
End L.

(** The elements of [l] at distinct positions [idx]. *)
Definition selection {A} (l : list A) (n : nat) (r : list A) : Prop :=
  exists idx, NoDup idx /\ length idx = n /\ Forall2 (fun i x => nth_error l i = Some x) idx r.
