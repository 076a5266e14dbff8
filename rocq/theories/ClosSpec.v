(** What blocks mean: every frame is an environment that lives on, a block is its code with the
    environment it was written in. *)
From Coq Require Import List Bool Arith ZArith.
From Verif Require Import ClosModel.
Import ListNotations.

Record env := mkE { evars : nat -> value; eouter : option nat; eblk : option (nat * fid); enative : bool }.
(** The active environments, oldest first; all environments; Procs. *)
Record wst := mkW { depth : nat; act : nat -> nat; ne : nat; envs : nat -> env; nq : nat; clos : nat -> nat * fid }.
Definition now (w : wst) : nat := act w (pred (depth w)).
Definition here (w : wst) : env := envs w (now w).
Definition wset (w : wst) (i x : nat) (v : value) : wst :=
  let e := envs w i in mkW (depth w) (act w) (ne w) (upd (envs w) i (mkE (upd (evars e) x v) (eouter e) (eblk e) (enative e))) (nq w) (clos w).
Fixpoint wup (w : wst) (i d : nat) : option nat :=
  match d with 0 => Some i | S d => match eouter (envs w i) with Some j => wup w j d | None => None end end.
Fixpoint whome (n : nat) (w : wst) (i : nat) : option nat :=
  match n with 0 => None | S n => match eouter (envs w i) with Some j => whome n w j | None => Some i end end.
Definition wpush (w : wst) (e : env) : wst :=
  mkW (S (depth w)) (upd (act w) (depth w) (ne w)) (S (ne w)) (upd (envs w) (ne w) e) (nq w) (clos w).
Definition wclo (w : wst) (i : nat) (f : fid) : wst * nat := (mkW (depth w) (act w) (ne w) (envs w) (S (nq w)) (upd (clos w) (nq w) (i, f)), nq w).
Definition wblock (w : wst) (b : bsel) : option (nat * fid) :=
  match b with
  | BNone => None
  | BLit f => Some (now w, f)
  | BParam => eblk (here w)
  | BVar x => match evars (here w) x with VProc q => Some (clos w q) | _ => None end
  end.
Definition wenter (w : wst) (c : nat * fid) (arg : value) (b : option (nat * fid)) : wst :=
  wpush w (mkE (new_vars (evars (envs w (fst c)) 0) arg) (Some (fst c)) b false).
Definition wsee (w : wst) (v : value) : vis := match v with VNil => SeeNil | VInt z => SeeInt z | VProc q => SeeProc (snd (clos w q)) end.
Fixpoint wfind (w : wst) (i k : nat) : option nat := match k with 0 => None | S k => if act w k =? i then Some k else wfind w i k end.

Definition wstep (w : wst) (o : op) : wst * out :=
  match o with
  | ORead d x => match wup w (now w) d with Some i => (w, Val (wsee w (evars (envs w i) x))) | None => (w, Stuck) end
  | OSet d x z => match wup w (now w) d with Some i => (wset w i x (VInt z), Done) | None => (w, Stuck) end
  | OMove d x d' x' =>
      match wup w (now w) d, wup w (now w) d' with
      | Some i, Some j => (wset w i x (evars (envs w j) x'), Done)
      | _, _ => (w, Stuck)
      end
  | OCall y x b => (wpush w (mkE (new_vars (evars (here w) y) (evars (here w) x)) None (wblock w b) false), Done)
  | ONative y b => (wpush w (mkE (new_vars (evars (here w) y) VNil) None (wblock w b) true), Done)
  | OYield x =>
      match whome (S (ne w)) w (now w) with
      | Some i => match eblk (envs w i) with Some c => (wenter w c (evars (here w) x) None, Ran (snd c)) | None => (w, NoBlock) end
      | None => (w, NoBlock)
      end
  | OEach x => match enative (here w), eblk (here w) with true, Some c => (wenter w c (evars (here w) x) None, Ran (snd c)) | _, _ => (w, NoBlock) end
  | OProc x y b =>
      match evars (here w) x with
      | VProc q => (wenter w (clos w q) (evars (here w) y) (wblock w b), Ran (snd (clos w q)))
      | _ => (w, NoBlock)
      end
  | OLambda x f => let '(w1, q) := wclo w (now w) f in (wset w1 (now w) x (VProc q), Done)
  | OBlockArg d x =>
      match wup w (now w) d with
      | Some i => match eblk (envs w i) with
                  | Some (j, f) => let '(w1, q) := wclo w j f in (wset w1 (now w) x (VProc q), Done)
                  | None => (wset w (now w) x VNil, Done)
                  end
      | None => (w, Stuck)
      end
  | OBinding x => let '(w1, q) := wclo w (now w) 0 in (wset w1 (now w) x (VProc q), Done)
  | OGiven => match whome (S (ne w)) w (now w) with Some i => (w, Given match eblk (envs w i) with None => false | _ => true end) | None => (w, Stuck) end
  | OHome => match whome (S (ne w)) w (now w) with Some i => (w, Pos (wfind w i (depth w))) | None => (w, Stuck) end
  | ORet x y =>
      match depth w with
      | S (S n) => let v := evars (here w) x in
                   let w1 := mkW (S n) (act w) (ne w) (envs w) (nq w) (clos w) in (wset w1 (now w1) y v, Done)
      | _ => (w, Done)
      end
  end.
Fixpoint wrun (w : wst) (l : list op) : list out := match l with [] => [] | o :: r => let '(w1, x) := wstep w o in x :: wrun w1 r end.
Definition wstart : wst := mkW 1 (fun _ => 0) 1 (fun _ => mkE (fun _ => VNil) None None false) 0 (fun _ => (0, 0)).

(** A Binding is made only where no frame around holds a block of a running frame. *)
Fixpoint no_proxy (n : nat) (s : st) (a : addr) : bool :=
  match n with
  | 0 => true
  | S n => match blk (frame_at s a) with HProxy _ _ => false | _ => match outer (frame_at s a) with Some o => no_proxy n s o | None => true end end
  end.
Definition fair (s : st) (o : op) : Prop := match o with OBinding _ => no_proxy (S (born s)) s (r14 s) = true | _ => True end.
Fixpoint fair_all (s : st) (l : list op) : Prop := match l with [] => True | o :: r => fair s o /\ fair_all (fst (step s o)) r end.
