(** What a program does, without any compiled code: every call looks its
    method up at that moment. *)
From Coq Require Import List Arith Bool PeanoNat.
From Verif Require Import DispModel.
Import ListNotations.

Definition srunner := world -> env -> list stmt -> option (world * env).

Definition sinvoke (P : prog) (rn : srunner) (w : world) (f o : nat) (args : list nat)
    : option (world * nat) :=
  let w := log w f o in
  match p_meth P f with
  | KReader iv => Some (w, w_heap w o iv)
  | KWriter iv => Some (write w o iv (nth 0 args 0), nth 0 args 0)
  | KPure k => Some (w, p_prim P k (env_of o args))
  | KBody body =>
      match rn w (env_of o args) body with
      | Some (w', e') => Some (w', e' 1)
      | None => None
      end
  end.

Definition sdispatch (P : prog) (rn : srunner) (w : world) (n o : nat) (args : list nat)
    : option (world * nat) :=
  match w_tab w (cls w o) n with
  | Some f => sinvoke P rn w f o args
  | None => Some (log w 0 o, 0)
  end.

Fixpoint srun (P : prog) (n : nat) : srunner := fun w e code =>
  match n with
  | 0 => None
  | S n =>
    match code with
    | [] => Some (w, e)
    | s :: rest =>
      match s with
      | SMove d s => srun P n w (upd e d (e s)) rest
      | SPrim d k => srun P n w (upd e d (p_prim P k e)) rest
      | SDef g => srun P n (redefine g w) e rest
      | SSingle r g => srun P n (singleton (e r) g w) e rest
      | SHelper d r nm =>
          match sdispatch P (srun P n) w nm (e r) [] with
          | Some (w', v) => srun P n (hushed w w') (upd e d v) rest
          | None => None
          end
      | SFiber d r nm =>
          match sdispatch P (srun P n) w nm (e r) [] with
          | Some (w', v) => srun P n (loud w') (upd e d v) rest
          | None => None
          end
      | SCall _ d r nm args =>
          match sdispatch P (srun P n) w nm (e r) (map e args) with
          | Some (w', v) => srun P n w' (upd e d v) rest
          | None => None
          end
      | SIf s a b =>
          match srun P n w e (if truthy (e s) then a else b) with
          | Some (w', e') => srun P n w' e' rest
          | None => None
          end
      | SWhile s body =>
          if truthy (e s) then
            match srun P n w e body with
            | Some (w', e') => srun P n w' e' (SWhile s body :: rest)
            | None => None
            end
          else srun P n w e rest
      end
    end
  end.

Definition sstart (P : prog) (n : nat) (w : world) (f o : nat) (args : list nat)
    : option (world * nat) :=
  sinvoke P (srun P n) w f o args.

(** No singleton class was created or changed, no runtime helper changed the
    class version, no fiber was resumed. *)
Definition calm (w : world) : Prop := w_quiet w = true.

(** The recorded resolutions of a unit hold now. *)
Definition fresh (w : world) (u : unit_) : Prop :=
  Forall (fun e => w_tab w (e_cls e) (e_name e) = Some (e_fid e)) (u_entries u).

(** Every registered unit whose version word equals the current version can
    be run: its resolutions are the current ones. *)
Definition sound_units (j : jit) (w : world) : Prop :=
  forall f c u, j_units j f c = Some u -> j_word j (u_id u) = w_ver w -> fresh w u.
