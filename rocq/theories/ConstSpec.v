(** A program without caches, versions and compiled code: every reference is resolved. *)
From Coq Require Import List Bool Arith.
From Verif Require Import ConstModel.
Import ListNotations.

Definition no_hook : hook := fun _ _ => None.

Section Sites.
Variable info : nat -> site.

(** The tables and the lexical contexts: all that a reference may depend on. *)
Definition world : Type := env * (nat -> lex).
Definition now (w : world) (h : hook) (i : nat) (base : option cval) (self : cls) : res :=
  resolve_at info (fst w) (snd w) h i (base_of (info i) base) (key_of (info i) self).
Definition wstep (w : world) (e : ev) : world * option res :=
  let '(en, ls) := w in
  match e with
  | EAssign c n v => ((put en c n v, ls), None)
  | ERemove c n => ((set_tbl en c n None, ls), None)
  | EInclude ch => ((mkEnv (tbl en) ch, ls), None)
  | EKeyword c n m => ((put en c n (VMod m), ls), None)
  | EAutoload c n => ((put_autoload en c n, ls), None)
  | EState c n a => ((put_state en c n a, ls), None)
  | EPriv c n b => ((put_priv en c n b, ls), None)
  | EStamp i l => ((en, upd ls i l), None)
  | ERead i base self h | ERun _ i base self h => (w, Some (now w h i base self))
  | ECompile _ _ _ _ => (w, None)
  end.
Fixpoint wrun (w : world) (l : list ev) : world * list (option res) :=
  match l with
  | [] => (w, [])
  | e :: r => let '(w, o) := wstep w e in let '(w, os) := wrun w r in (w, o :: os)
  end.
Fixpoint wrun_inst (w : world) (self : cls) (h : hook) (p : list inst) : list res :=
  match p with
  | [] => []
  | IFold i b :: r => now w h i b self :: wrun_inst w self h r
  | ICall l :: r | IHelper l :: r => wrun_inst (fst (wrun w l)) self h r
  end.

(** Two results a program cannot tell apart. *)
Definition vis (r : res) : res := match r with RVal v _ => RVal v false | r => r end.

(** No cache that still counts, and no compiled code, knows the name. *)
Definition quiet (s : st) (n : name) : Prop :=
  (forall i c, caches s i = Some c -> In n (names (info i)) -> c_ver c <> ver s) /\
  (forall u un f, units s u = Some un -> In f (u_folds un) -> ~ In n (f_names f)).
Definition quiet_code (s : st) (q : nat) : Prop :=
  (forall i c, caches s i = Some c -> s_iseq (info i) = q -> c_ver c <> ver s) /\
  (forall u un f, units s u = Some un -> In f (u_folds un) -> s_iseq (info (f_site f)) <> q).

Definition calm (s : st) (h : hook) (i : nat) (base : option cval) (self : cls) : Prop :=
  forall v, now (senv s, lexs s) h i base self <> RVal v true.

(** What the code announces to its caches, and what it does not: a definition by keyword, an
    autoload, a change of visibility or of a lexical context has to be [quiet], and no reference
    takes its value from a hook. *)
Definition fair (s : st) (e : ev) : Prop :=
  match e with
  | EKeyword _ n _ | EAutoload _ n | EState _ n _ | EPriv _ n _ => quiet s n
  | EStamp q l => l = lexs s q \/ quiet_code s q
  | ERead i base self h | ERun _ i base self h => calm s h i base self
  | EAssign _ _ _ | ERemove _ _ | EInclude _ | ECompile _ _ _ _ => True
  end.
Fixpoint fair_all (s : st) (l : list ev) : Prop :=
  match l with [] => True | e :: r => fair s e /\ fair_all (fst (step info s e)) r end.

(** A program at its start. *)
Definition fresh (s : st) : Prop := (forall i, caches s i = None) /\ (forall u, units s u = None).

(** A run of compiled code: what it does is announced, no hook gives a value, and nothing that
    keeps the guard moves the version. *)
Definition tame (w : world) (e : ev) : Prop :=
  match e with
  | ERead i base self h | ERun _ i base self h => forall v, now w h i base self <> RVal v true
  | EAssign _ _ _ | ERemove _ _ | EInclude _ | ECompile _ _ _ _ => True
  | _ => False
  end.
Fixpoint tame_all (w : world) (l : list ev) : Prop :=
  match l with [] => True | e :: r => tame w e /\ tame_all (fst (wstep w e)) r end.
Definition still (e : ev) : Prop := match e with EAssign _ _ _ | ERemove _ _ | EInclude _ => False | _ => True end.
Fixpoint tame_insts (w : world) (u : nat) (self : cls) (h : hook) (p : list inst) : Prop :=
  match p with
  | [] => True
  | IFold i b :: r => (forall v, now w h i b self <> RVal v true) /\ tame_insts w u self h r
  | ICall l :: r => tame_all w l /\ (forall self b is, ~ In (ECompile u self b is) l) /\ tame_insts (fst (wrun w l)) u self h r
  | IHelper l :: r => tame_all w l /\ (forall self b is, ~ In (ECompile u self b is) l) /\ (forall e, In e l -> still e)
                      /\ tame_insts (fst (wrun w l)) u self h r
  end.
End Sites.

(* ---- lookup, without order of evaluation ---- *)

(** A class that has the constant: with a value, or an autoload that can start. *)
Definition has (e : env) (n : name) (c : cls) : Prop :=
  exists x, tbl e c n = Some x /\ (e_kind x = Auto Idle \/ exists v, e_kind x = Loaded v).
(** The first class of a list that has it has this entry. *)
Definition nearest (e : env) (n : name) (cs : list cls) (k : ckind) : Prop :=
  exists a c b x, cs = a ++ c :: b /\ (forall d, In d a -> ~ has e n d) /\ tbl e c n = Some x /\ e_kind x = k.
(** Ruby's order for a name in a method: the classes and modules around it, inside out (not the
    top level), the ancestors of the innermost, [Object]. *)
Definition around (e : env) (cref : list cls) : list cls :=
  cref ++ chain e (hd OBJECT cref) ++ [OBJECT].
(** The first class of a list that has it is this one. *)
Definition nearest_class (e : env) (n : name) (cs : list cls) (d : cls) : Prop :=
  exists a b, cs = a ++ d :: b /\ (forall c, In c a -> ~ has e n c) /\ has e n d.
