(** What Kernel#send should do: what a call of the named method that may reach private
    methods does. *)
From Coq Require Import ZArith List Bool.
From Verif Require Import ClassModel LookupModel ArgModel ArgSpec SendModel.
Import ListNotations.
Open Scope Z_scope.

Definition anyone : Z -> bool := fun _ => true.
(** The body found without any cache, or method_missing's. *)
Definition says (mm : Z) (w : world) (c n : Z) : runs :=
  match dispatch w n true anyone c with
  | Body f => Runs f
  | Missing => match dispatch w mm true anyone c with Body f => RunsMissing f | Missing => NoMethod end
  end.

(** The receivers a guard lets through; a receiver's class is never the pseudo class. *)
Definition admitted (g : list Z) (c : Z) : Prop := c <> BOOL /\ In (ic_class c) g.
(** All of them would run the same. *)
Definition agree_on (w : world) (g : list Z) (n : Z) : Prop :=
  forall c c', admitted g c -> admitted g c' -> dispatch w n true anyone c = dispatch w n true anyone c'.

(** The life of a send that is compiled again and again. A guard is made of the classes
    of receivers seen. *)
Inductive sendop :=
| SRun (o : mop)
| SCompile (g : list Z)
| SSend (c n : Z).
Inductive sends (mm : Z) (ok : world -> list Z -> Z -> Prop)
  : world -> list Z -> sendsite -> list sendop -> world -> list Z -> sendsite -> Prop :=
| sends_nil w g s : sends mm ok w g s [] w g s
| sends_run w g s o w1 l w2 g2 s2 : (mstep w o = Fine w1 \/ mstep w o = Raise w1) ->
    sends mm ok w1 g s l w2 g2 s2 -> sends mm ok w g s (SRun o :: l) w2 g2 s2
| sends_compile w g s g1 l w2 g2 s2 : (forall k, In k g1 -> k = BOOL \/ defined (ws w) k = true) ->
    sends mm ok w g1 fresh_site l w2 g2 s2 -> sends mm ok w g s (SCompile g1 :: l) w2 g2 s2
| sends_send w g s c n r s1 w1 l w2 g2 s2 : n <> 0 -> defined (ws w) c = true -> ok w g n ->
    send_at mm g w s c n = (r, s1, w1) ->
    sends mm ok w1 g s1 l w2 g2 s2 -> sends mm ok w g s (SSend c n :: l) w2 g2 s2.

(** Every guard is for one class, and not for the booleans. *)
Definition one_class (o : sendop) : Prop :=
  match o with SCompile g => exists k, g = [k] /\ k <> BOOL | _ => True end.

(** The compiled send raises where method_missing should run. *)
Definition but_missing (r want : runs) : Prop :=
  r = want \/ (r = NoMethod /\ exists f, want = RunsMissing f).
