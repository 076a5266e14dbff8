(** What a method lookup should find, along a list of classes. *)
From Coq Require Import ZArith List Bool.
From Verif Require Import ClassModel LookupModel.
Import ListNotations.
Open Scope Z_scope.

(** What a class says about a name: it defines it, takes it away, or at most declares
    its visibility. *)
Definition defines (T : tables) (n c f : Z) (v : vis) : Prop :=
  exists e, T c n = Some e /\ eshadow e = false /\ efid e = Some f /\ evis e = v.
Definition undefines (T : tables) (n c : Z) : Prop :=
  exists e, T c n = Some e /\ eshadow e = false /\ efid e = None /\ evis e = Undefined.
(** [private :m] for an inherited [m] leaves a declaration that lists [m] as a method of
    the class; [listed]. *)
Definition declares (T : tables) (n c : Z) (v : vis) (listed : bool) : Prop :=
  exists e, T c n = Some e /\ eshadow e = listed /\ evis e = v /\ (listed = false -> efid e = None /\ v <> Undefined).
Definition silent (T : tables) (n c : Z) : Prop := T c n = None.
Definition passes (T : tables) (n c : Z) : Prop := silent T n c \/ exists v b, declares T n c v b.

(** Going along [l] and then to [c]: the first visibility declared, and the first class
    that lists the method. *)
Inductive nearest (T : tables) (n c : Z) : list Z -> vis -> Prop :=
| near_here f v : defines T n c f v -> nearest T n c [] v
| near_silent a l v : silent T n a -> nearest T n c l v -> nearest T n c (a :: l) v
| near_declared a l v b : declares T n a v b -> nearest T n c (a :: l) v.
Inductive lister (T : tables) (n c : Z) : list Z -> Z -> Prop :=
| list_here : lister T n c [] c
| list_next a l o : silent T n a \/ (exists v, declares T n a v false) -> lister T n c l o -> lister T n c (a :: l) o
| list_declared a l v : declares T n a v true -> lister T n c (a :: l) a.

(** The answer of a lookup along [l]: the body of the first class that defines the
    name, with the nearest visibility and the owner to show; nothing if a class
    undefines it before, or if no class lists it. *)
Inductive resolves (T : tables) (n : Z) : list Z -> option (Z * vis * Z) -> Prop :=
| res_found l1 c l2 f w v o : Forall (passes T n) l1 -> defines T n c f w -> nearest T n c l1 v -> lister T n c l1 o ->
    resolves T n (l1 ++ c :: l2) (Some (f, v, o))
| res_undefined l1 c l2 : Forall (passes T n) l1 -> undefines T n c -> resolves T n (l1 ++ c :: l2) None
| res_nothing l : Forall (fun c => passes T n c /\ forall v, ~ declares T n c v true) l -> resolves T n l None.

(** A declaration of which the definition is gone. *)
Definition orphan (T : tables) (n : Z) (l : list Z) : Prop :=
  Forall (passes T n) l /\ exists c v, In c l /\ declares T n c v true.

Definition answer (r : option entry) : option (Z * vis * Z) :=
  match r with
  | Some e => match efid e with Some f => Some (f, evis e, eowner e) | None => None end
  | None => None
  end.

(** The classes a search passes, in order. *)
Definition places (h : heap) (l : list nat) : list Z :=
  map (idof h) (filter (fun x => match norg (at_ h x) with None => true | Some _ => false end) l).
Definition positions (h : heap) (a : nat) : list Z := places h (a :: above h a).

(** The entries a program can make: what is undefined has no body; a listed declaration
    has one. *)
Definition good_entry (c : Z) (e : entry) : Prop :=
  eowner e = c /\ (evis e = Undefined -> efid e = None) /\ (eshadow e = true -> efid e <> None).
Definition good_tables (T : tables) : Prop := forall c n e, T c n = Some e -> good_entry c e.

(** * Histories *)
Definition after_history (l : list mop) (w : world) : Prop := mrun start l = Some w.
(** An operation that looks nothing up by itself. *)
Definition quiet (o : mop) : Prop := match o with Look _ _ | LookBool _ => False | _ => True end.
(** No 2^32 operations in a row without a lookup. *)
Definition sparse (l : list mop) : Prop :=
  forall a b c, l = a ++ b ++ c -> Forall quiet b -> Z.of_nat (length b) < TWO32.

(** * A call site *)
Inductive sop :=
| Run (o : mop)
| Call (c : Z) (caller : Z -> bool).
Inductive site (n : Z) (fc : bool) : world -> option icache -> list sop -> world -> option icache -> Prop :=
| site_nil w k : site n fc w k [] w k
| site_run w k o w1 l w2 k2 : (mstep w o = Fine w1 \/ mstep w o = Raise w1) -> site n fc w1 k l w2 k2 ->
    site n fc w k (Run o :: l) w2 k2
| site_call w k c caller a k1 w1 l w2 k2 : defined (ws w) c = true -> vm_call w k n fc caller c = (a, k1, w1) ->
    site n fc w1 k1 l w2 k2 -> site n fc w k (Call c caller :: l) w2 k2.

(** The same for a compiled site: compiling happens at any time. *)
Inductive cop :=
| CRun (o : mop)
| Compile (c : Z)
| Enter (c : Z) (caller : Z -> bool).
Inductive csite (n : Z) (fc : bool) : world -> option unit_ -> list cop -> world -> option unit_ -> Prop :=
| csite_nil w u : csite n fc w u [] w u
| csite_run w u o w1 l w2 u2 : (mstep w o = Fine w1 \/ mstep w o = Raise w1) -> csite n fc w1 u l w2 u2 ->
    csite n fc w u (CRun o :: l) w2 u2
| csite_compile w u c u1 w1 l w2 u2 : defined (ws w) c = true -> compile w n fc c = (u1, w1) ->
    csite n fc w1 u1 l w2 u2 -> csite n fc w u (Compile c :: l) w2 u2
| csite_enter w u c caller a u1 w1 l w2 u2 : defined (ws w) c = true -> enter w u n fc caller c = (a, u1, w1) ->
    csite n fc w1 u1 l w2 u2 -> csite n fc w u (Enter c caller :: l) w2 u2.
