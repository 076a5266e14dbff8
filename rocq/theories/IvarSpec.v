(** What instance variables mean, without tables of names, slots, caches or compiled
    code: every object has its own list of variables in the order of assignment. *)
From Coq Require Import String ZArith Bool Arith.
From Coq Require Import List Permutation.
From Verif Require Import IvarModel.
Import ListNotations.

Record aobj := { a_vars : list (string * val); a_frozen : bool; a_const : bool }.
Definition amem := list aobj.

Fixpoint afind (l : list (string * val)) (n : string) : option val :=
  match l with
  | [] => None
  | (m, v) :: t => if String.eqb n m then Some v else afind t n
  end.

(** Assigning keeps the place of a variable that exists and adds a new one at the
    end. *)
Fixpoint aset (l : list (string * val)) (n : string) (v : val) : list (string * val) :=
  match l with
  | [] => [(n, v)]
  | (m, x) :: t => if String.eqb n m then (m, v) :: t else (m, x) :: aset t n v
  end.

Definition aremove (l : list (string * val)) (n : string) : list (string * val) :=
  filter (fun p => negb (String.eqb n (fst p))) l.

(** What a program asks for. *)
Inductive act :=
| AGet (o : nat) (n : string) | ADefined (o : nat) (n : string)
| ASet (o : nat) (n : string) (v : val) | ARemove (o : nat) (n : string)
| AList (o : nat) | ANew (const : bool) | ADup (o : nat) | AClone (o : nat) (fz : option bool)
| AFreeze (o : nat) | ANone.

Definition vars (m : amem) (o : nat) : list (string * val) :=
  match nth_error m o with Some a => a_vars a | None => [] end.

Definition asks (m : amem) (a : act) : amem * res :=
  match a with
  | AGet o n => (m, Ok (or_nil (afind (vars m o) n)))
  | ADefined o n => (m, Yes (match afind (vars m o) n with Some _ => true | None => false end))
  | ASet o n v =>
      match nth_error m o with
      | None => (m, FrozenError)
      | Some x =>
          if a_frozen x then (m, FrozenError)
          else (upd m o {| a_vars := aset (a_vars x) n v; a_frozen := false; a_const := a_const x |}, Ok v)
      end
  | ARemove o n =>
      match nth_error m o with
      | None => (m, FrozenError)
      | Some x =>
          if a_frozen x then (m, FrozenError)
          else match afind (a_vars x) n with
               | None => (m, NameError)
               | Some v => (upd m o {| a_vars := aremove (a_vars x) n; a_frozen := false;
                                       a_const := a_const x |}, Ok v)
               end
      end
  | AList o => (m, Names (filter (fun n => negb (hidden n)) (map fst (vars m o))))
  | ANew b => (m ++ [{| a_vars := []; a_frozen := b; a_const := b |}], Made (length m))
  | ADup o =>
      match nth_error m o with
      | None => (m, Done)
      | Some x => (m ++ [{| a_vars := a_vars x; a_frozen := a_const x; a_const := a_const x |}],
                   Made (length m))
      end
  | AClone o fz =>
      match nth_error m o with
      | None => (m, Done)
      | Some x =>
          (m ++ [{| a_vars := a_vars x;
                    a_frozen := (match fz with Some b => b | None => a_frozen x end) || a_const x;
                    a_const := a_const x |}], Made (length m))
      end
  | AFreeze o =>
      match nth_error m o with
      | None => (m, Done)
      | Some x => (upd m o {| a_vars := a_vars x; a_frozen := true; a_const := a_const x |}, Done)
      end
  | ANone => (m, Done)
  end.

(** What an event asks for: an interpreted instruction or a compiled access asks for
    the variable whose name is written there, of the object it runs on. The
    remaining events ask nothing. *)
Definition frame_name (w : world) (f k : nat) : option (nat * string) :=
  match nth_error (frames w) f with
  | Some (u, o) =>
      match nth_error (units w) u with
      | Some un =>
          match nth_error (u_ivars un) k with Some (n, _) => Some (o, n) | None => None end
      | None => None
      end
  | None => None
  end.

Definition action (w : world) (e : event) : act :=
  match e with
  | New c =>
      match nth_error (classes w) c with Some ci => if c_single ci then ANone else ANew (c_always ci)
      | None => ANone end
  | Get o n => AGet o n
  | Defined o n => ADefined o n
  | Set_ o n v => ASet o n v
  | Remove o n => ARemove o n
  | List_ o => AList o
  | LoadSite s o => match nth_error (sites w) s with Some (n, _) => AGet o n | None => ANone end
  | StoreSite s o v => match nth_error (sites w) s with Some (n, _) => ASet o n v | None => ANone end
  | FrameLoad f k => match frame_name w f k with Some (o, n) => AGet o n | None => ANone end
  | FrameStore f k v => match frame_name w f k with Some (o, n) => ASet o n v | None => ANone end
  | Dup o => ADup o
  | Clone o fz => AClone o fz
  | Freeze o => AFreeze o
  | _ => ANone
  end.

Fixpoint actions (w : world) (es : list event) : list act :=
  match es with
  | [] => []
  | e :: t => action w e :: actions (fst (step w e)) t
  end.

Fixpoint answers (m : amem) (l : list act) : list res :=
  match l with
  | [] => []
  | a :: t => snd (asks m a) :: answers (fst (asks m a)) t
  end.

(** Equal answers; lists of names up to order; making a singleton class answers
    nothing about variables, whether it is refused or not. *)
Definition same (r r' : res) : Prop :=
  match r, r' with
  | Names l, Names l' => Permutation l l'
  | TypeError, Done => True
  | _, _ => r = r'
  end.

(** ** The cases in which the code does not do this *)

(** Every slot of the object that is set has the same name in its class as in its
    real class. *)
Definition layout_ok (w : world) (o : nat) : Prop :=
  forall ob, nth_error (heap w) o = Some ob ->
  forall i v, get_by_id ob i = Some v ->
    nth_error (names_of w (o_class ob)) i = nth_error (names_of w (real_of w (o_class ob))) i.

(** Code whose self is an instance of an always frozen class is not compiled with a
    variable in it. *)
Definition compilable (w : world) (e : event) : Prop :=
  match e with
  | Compile c true (_ :: _) => always_of w c = false
  | _ => True
  end.

(** Compiled attr_readers do not read instances of always frozen classes. *)
Definition not_always (w : world) (e : event) : Prop :=
  match e with
  | FrameLoad f _ =>
      forall u o un, nth_error (frames w) f = Some (u, o) -> nth_error (units w) u = Some un ->
        u_always un = false
  | _ => True
  end.

Definition copies_ok (w : world) (e : event) : Prop :=
  match e with
  | Dup o | Clone o _ => layout_ok w o
  | _ => True
  end.

Fixpoint always_ (P : world -> event -> Prop) (w : world) (es : list event) : Prop :=
  match es with
  | [] => True
  | e :: t => P w e /\ always_ P (fst (step w e)) t
  end.

Definition fine (w : world) (e : event) : Prop :=
  compilable w e /\ not_always w e /\ copies_ok w e.

(** Copies are only made of objects without a singleton class. *)
Definition plain_copies (w : world) (e : event) : Prop :=
  match e with
  | Dup o | Clone o _ =>
      forall ob, nth_error (heap w) o = Some ob -> real_of w (o_class ob) = o_class ob
  | _ => True
  end.

(** The last answer of a history, and the one it should give. *)
Definition got (es : list event) : res := last (run start es) Done.
Definition want (es : list event) : res := last (answers [] (actions start es)) Done.

Fixpoint after (w : world) (es : list event) : world :=
  match es with [] => w | e :: t => after (fst (step w e)) t end.
