(** What the expressions mean: Ruby's evaluation from left to right, and the conditions under
    which the generated code does that. *)
From Coq Require Import List Bool Arith ZArith.
From Verif Require Import GenModel.
Import ListNotations.

Section Spec.
Variable W : Type.
Variable caps : list var.
Variable call : W -> meth -> list value -> list value -> W * list value * (value + nat).
Variable self : value.

Definition env := var -> value.
Definition upd (l : env) (x : var) (v : value) : env := fun y => if y =? x then v else l y.
Definition put_env (l : env) (vs : list value) : env := fun x => match lookup caps vs x with Some v => v | None => l x end.

(** A value; the exits of a loop; a return; an exception. *)
Inductive out := OVal (v : value) | OBrk (v : value) | ONxt | ORet (v : value) | OExn (x : nat).
Definition res := option (W * env * out).
Definition bind (x : res) (f : W -> env -> value -> res) : res :=
  match x with Some (w, l, OVal v) => f w l v | _ => x end.
Definition do_call (w : W) (l : env) (m : meth) (args : list value) : res :=
  let '(w', vs, x) := call w m args (map l caps) in
  Some (w', put_env l vs, match x with inl v => OVal v | inr x => OExn x end).

Inductive starget := SVar (x : var) | SAttr (m : meth) (recv : value) | SIdx (b i : value).
Definition store (w : W) (l : env) (g : starget) (v : value) (f : W -> env -> res) : res :=
  match g with
  | SVar x => f w (upd l x v)
  | SAttr m recv => bind (do_call w l m [recv; v]) (fun w l _ => f w l)
  | SIdx b i => bind (do_call w l SETINDEX [b; i; v]) (fun w l _ => f w l)
  end.
Fixpoint stores (w : W) (l : env) (gs : list starget) (vs : list value) (f : W -> env -> res) : res :=
  match gs, vs with g :: gs, v :: vs => store w l g v (fun w l => stores w l gs vs f) | _, _ => f w l end.

Section Lists.
Variable ev : W -> env -> expr -> res.
Fixpoint evals (w : W) (l : env) (es : list expr) (f : W -> env -> list value -> res) : res :=
  match es with
  | [] => f w l []
  | e :: es => bind (ev w l e) (fun w l v => evals w l es (fun w l vs => f w l (v :: vs)))
  end.
Definition ev_lv (w : W) (l : env) (t : lval) (f : W -> env -> starget -> res) : res :=
  match t with
  | LVar x => f w l (SVar x)
  | LAttr m e => bind (ev w l e) (fun w l v => f w l (SAttr m v))
  | LIdx b i => bind (ev w l b) (fun w l vb => bind (ev w l i) (fun w l vi => f w l (SIdx vb vi)))
  end.
Fixpoint ev_lvs (w : W) (l : env) (ts : list lval) (f : W -> env -> list starget -> res) : res :=
  match ts with
  | [] => f w l []
  | t :: ts => ev_lv w l t (fun w l g => ev_lvs w l ts (fun w l gs => f w l (g :: gs)))
  end.
End Lists.

(** [n] bounds the nesting and the iterations; [None]: not finished within it. *)
Fixpoint eval (n : nat) (w : W) (l : env) (e : expr) {struct n} : res :=
  match n with
  | 0 => None
  | S n =>
      let ev := eval n in
      match e with
      | ELit v => Some (w, l, OVal v)
      | ESelf => Some (w, l, OVal self)
      | EVar x => Some (w, l, OVal (l x))
      | EBin m a b => bind (ev w l a) (fun w l va => bind (ev w l b) (fun w l vb => do_call w l m [va; vb]))
      | EUn m a => bind (ev w l a) (fun w l va => do_call w l m [va])
      | EAnd a b => bind (ev w l a) (fun w l va => if truthy va then ev w l b else Some (w, l, OVal va))
      | EOr a b => bind (ev w l a) (fun w l va => if truthy va then Some (w, l, OVal va) else ev w l b)
      | EAsgn x e => bind (ev w l e) (fun w l v => Some (w, upd l x v, OVal v))
      | EOp m x e => bind (ev w l e) (fun w l' v => bind (do_call w l' m [l x; v]) (fun w l v => Some (w, upd l x v, OVal v)))
      | EOrA x e => if truthy (l x) then Some (w, l, OVal (l x)) else bind (ev w l e) (fun w l v => Some (w, upd l x v, OVal v))
      | EAndA x e => if truthy (l x) then bind (ev w l e) (fun w l v => Some (w, upd l x v, OVal v)) else Some (w, l, OVal (l x))
      | ESeq a b => bind (ev w l a) (fun w l _ => ev w l b)
      | EIf c a b => bind (ev w l c) (fun w l v => if truthy v then ev w l a else ev w l b)
      | EWhile op c b =>
          match bind (ev w l c) (fun w l v => if eqb (truthy v) op then bind (ev w l b) (fun w l _ => Some (w, l, ONxt)) else Some (w, l, OBrk Nil)) with
          | Some (w, l, ONxt) => ev w l (EWhile op c b)
          | Some (w, l, OBrk v) => Some (w, l, OVal v)
          | x => x
          end
      | EBreak e => bind (ev w l e) (fun w l v => Some (w, l, OBrk v))
      | ENext e => bind (ev w l e) (fun w l _ => Some (w, l, ONxt))
      | EReturn e => bind (ev w l e) (fun w l v => Some (w, l, ORet v))
      | ECall m recv args => bind (ev w l recv) (fun w l v => evals ev w l args (fun w l vs => do_call w l m (v :: vs)))
      | ESafe m recv args =>
          bind (ev w l recv) (fun w l v => if is_nil v then Some (w, l, OVal Nil) else evals ev w l args (fun w l vs => do_call w l m (v :: vs)))
      | EArr es => evals ev w l es (fun w l vs => do_call w l MKARRAY vs)
      | ESet t e => ev_lv ev w l t (fun w l g => bind (ev w l e) (fun w l v => store w l g v (fun w l => Some (w, l, OVal v))))
      | EMul ts es => ev_lvs ev w l ts (fun w l gs => evals ev w l es (fun w l vs => stores w l gs vs (fun w l => do_call w l MKARRAY vs)))
      | ESplat x e => bind (ev w l e) (fun w l v => bind (do_call w l SPLAT [v]) (fun w l a => Some (w, upd l x a, OVal v)))
      end
  end.

(* ---- what an expression may touch ---- *)

Definition cap (x : var) : bool := existsb (Nat.eqb x) caps.

(** May the value of [y] change while [e] is evaluated?  Every call may change captured locals. *)
Fixpoint assigns (y : var) (e : expr) {struct e} : bool :=
  let lv t := match t with LVar x => x =? y | LAttr _ e => cap y || assigns y e | LIdx b i => cap y || assigns y b || assigns y i end in
  match e with
  | ELit _ | ESelf | EVar _ => false
  | EBin _ a b => cap y || assigns y a || assigns y b
  | EUn _ a => cap y || assigns y a
  | EAnd a b | EOr a b | ESeq a b | EWhile _ a b => assigns y a || assigns y b
  | EAsgn x e | EOrA x e | EAndA x e => (x =? y) || assigns y e
  | EOp _ x e | ESplat x e => cap y || (x =? y) || assigns y e
  | EIf c a b => assigns y c || assigns y a || assigns y b
  | EBreak e | ENext e | EReturn e => assigns y e
  | ECall _ r es | ESafe _ r es => cap y || assigns y r || existsb (assigns y) es
  | EArr es => cap y || existsb (assigns y) es
  | ESet t e => lv t || assigns y e
  | EMul ts es => cap y || existsb lv ts || existsb (assigns y) es
  end.
(** Does [e] depend on the value of [x], or let others see it? *)
Fixpoint reads (x : var) (e : expr) {struct e} : bool :=
  let lv t := match t with LVar _ => false | LAttr _ e => cap x || reads x e | LIdx b i => cap x || reads x b || reads x i end in
  match e with
  | ELit _ | ESelf => false
  | EVar y => y =? x
  | EBin _ a b => cap x || reads x a || reads x b
  | EUn _ a => cap x || reads x a
  | EAnd a b | EOr a b | ESeq a b | EWhile _ a b => reads x a || reads x b
  | EAsgn y e => reads x e
  | EOrA y e | EAndA y e => (y =? x) || reads x e
  | EOp _ y e => cap x || (y =? x) || reads x e
  | ESplat y e => cap x || reads x e
  | EIf c a b => reads x c || reads x a || reads x b
  | EBreak e | ENext e => reads x e
  | EReturn e => cap x || reads x e
  | ECall _ r es | ESafe _ r es => cap x || reads x r || existsb (reads x) es
  | EArr es => cap x || existsb (reads x) es
  | ESet t e => lv t || reads x e
  | EMul ts es => cap x || existsb lv ts || existsb (reads x) es
  end.
(** No break or next leaves [e]. *)
Fixpoint stays (e : expr) {struct e} : bool :=
  let lv t := match t with LVar _ => true | LAttr _ e => stays e | LIdx b i => stays b && stays i end in
  match e with
  | ELit _ | ESelf | EVar _ | EWhile _ _ _ => true
  | EBin _ a b | EAnd a b | EOr a b | ESeq a b => stays a && stays b
  | EUn _ e | EAsgn _ e | EOp _ _ e | EOrA _ e | EAndA _ e | EReturn e | ESplat _ e => stays e
  | EIf c a b => stays c && stays a && stays b
  | EBreak _ | ENext _ => false
  | ECall _ r es | ESafe _ r es => stays r && forallb stays es
  | EArr es => forallb stays es
  | ESet t e => lv t && stays e
  | EMul ts es => forallb lv ts && forallb stays es
  end.

(* ---- the conditions ---- *)

(** How a value is used: not at all, in a register of its own, put in a local variable. *)
Inductive use := UNo | UVal | ULoc (x : var).
Definition is_var (x : var) (e : expr) : bool := match e with EVar y => y =? x | _ => false end.
(** An operand that is a local variable is read after the other operands. *)
Definition lazy (a : expr) (later : var -> bool) : bool := match a with EVar y => negb (later y) | _ => true end.
Definition lazy_lv (t : lval) (later : var -> bool) : bool := match t with LAttr _ e => lazy e later | _ => true end.
(** What a target changes when it is assigned. *)
Definition hits (y : var) (t : lval) : bool := match t with LVar x => x =? y | _ => cap y end.
Fixpoint parts (y : var) (ts : list lval) : bool :=
  match ts with
  | [] => false
  | LVar _ :: ts => parts y ts
  | LAttr _ e :: ts => assigns y e || parts y ts
  | LIdx b i :: ts => assigns y b || assigns y i || parts y ts
  end.
(** [before]: the targets that are assigned before. *)
Fixpoint lazy_lvs (before : list lval) (ts : list lval) (es : list expr) : bool :=
  match ts with
  | [] => true
  | t :: r => lazy_lv t (fun y => parts y r || existsb (assigns y) es || existsb (hits y) before) && lazy_lvs (before ++ [t]) r es
  end.

Fixpoint ok (u : use) (e : expr) {struct e} : bool :=
  let val e := ok UVal e in
  let lv t := match t with LVar _ => true | LAttr _ e => val e | LIdx b i => val b && val i end in
  match e with
  | ELit _ | ESelf | EVar _ => true
  | EBin _ a b => val a && val b && lazy a (fun y => assigns y b)
  | EUn _ a => match u with ULoc x => negb (cap x) && ok (ULoc x) a | _ => val a end
  | EAnd a b => match u with
                | ULoc x => ok (ULoc x) a && ok (ULoc x) b && (is_var x a || (negb (reads x b) && stays b))
                | _ => val a && val b
                end
  | EOr a b => val a && val b
  | EAsgn x e => ok (ULoc x) e
  | EOp _ x e => val e && negb (assigns x e)
  | EOrA x e => val e
  | EAndA x e => ok (ULoc x) e
  | ESeq a b => ok UNo a && ok u b
  | EIf c a b => let v := match u with UNo => UNo | _ => UVal end in val c && ok v a && ok v b
  | EWhile _ c b => val c && ok UNo b
  | EBreak e => ok UNo e && ok UVal e && stays e
  | ENext e => ok UNo e
  | EReturn e => val e
  | ECall _ r es | ESafe _ r es => val r && forallb val es && lazy r (fun y => existsb (assigns y) es)
  | EArr es => forallb val es
  | ESet t e =>
      lv t && match u with
              | ULoc x => negb (cap x) && ok (ULoc x) e && lazy_lv t (fun y => (y =? x) || assigns y e)
              | UVal => val e && lazy_lv t (fun y => assigns y e)
                        && match e with EVar y => negb (hits y t) | _ => true end
              | UNo => val e && lazy_lv t (fun y => assigns y e)
              end
  | EMul ts es => forallb lv ts && forallb val es && (length ts =? length es) && lazy_lvs [] ts es
  | ESplat x e =>
      match u with
      | UNo => val e && match e with EVar y => y =? x | ESelf => false | _ => true end
      | UVal => val e
      | ULoc z => negb (cap z) && negb (z =? x) && ok (ULoc z) e
      end
  end.
End Spec.
