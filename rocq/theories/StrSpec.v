(** What the classification a string carries must say, and the operations that are known
    to break it (each has a counterexample in [StrBadProofs]). *)
From Coq Require Import ZArith List Bool.
From Verif Require Import Utf8Model Utf8Spec IdModel StrModel.
Import ListNotations.
Open Scope Z_scope.

(** A string the runtime may treat as ASCII or as UTF-8 really is that. *)
Definition safe (s : str) : Prop :=
  (sc s = C7 -> Forall (fun x => x < 128) (sb s)) /\
  (se s = Utf8 -> sc s = CValid -> utf8_ok (sb s) = true).

(** Interpolated objects whose [to_s] is not a String print an ASCII class name. *)
Definition ascii_names (o : op) : Prop :=
  match o with OInterp ps => Forall (fun p => match p with inr t => ascii_b t = true | _ => True end) ps | _ => True end.

Section Jis.
Variable jis : list Z -> option nat.

(** The carried classification, when there is one, against a fresh look at the bytes:
    [x = true]: the same; [x = false]: the same except that ASCII text may be called valid. *)
Definition faithful (x : bool) (s : str) : Prop :=
  let c := classify jis (se s) (sb s) in
  match sc s with
  | CUnknown => True
  | C7 => c = C7
  | CValid => if x then c = CValid else is_well c = true
  | CBroken => c = CBroken
  end.

Definition plain_int (s : str) (c : Z) : bool :=
  (ascii_compatible (se s) || (128 <=? c)) && negb (enc_eqb (se s) UsAscii && (128 <=? c)).
Definition is_broken (c : crange) : bool := match c with CBroken => true | _ => false end.
Definition sjis (e : encoding) : bool := match e with Sjis _ => true | _ => false end.

Definition plain (x : bool) (st : store) (o : op) : bool :=
  match o with
  | ONew _ e _ | OForce _ e => negb (enc_eqb e Iso2022Jp)
  | OShlInt i c => plain_int (at_ st i) c
  | JShlInt i c _ => plain_int (at_ st i) c && negb (is_broken (sc (at_ st i)) && sjis (se (at_ st i)))
  | OMul i _ => negb (is_broken (sc (at_ st i))) || utf8_compat (se (at_ st i))
  | OReverse i =>
      negb (is_broken (code_range jis (at_ st i)) &&
            match se (at_ st i) with Utf8 | EucJp | Sjis _ => true | _ => false end)
  | OSub i a z =>
      let s := at_ st i in
      negb x || (a =? z)%nat || is7 (code_range jis s) || negb (is7 (classify jis (se s) (slice (sb s) a z)))
  | OSplice i a n j =>
      let s := at_ st i in
      negb x || ascii_b (sb s) || negb (ascii_b (firstn a (sb s) ++ sb (at_ st j) ++ skipn (a + n) (sb s)))
  | OInterp ps =>
      forallb (fun p => match p with inr t => ascii_b t | _ => true end) ps &&
      (forallb (fun p => match p with inr _ => false | _ => true end) ps ||
       forallb (fun p => match p with inl i => ascii_compatible (se (at_ st i)) | _ => true end) ps)
  | OPad i j _ _ => ascii_compatible (se (at_ st i)) || enc_eqb (se (at_ st i)) (se (at_ st j))
  | _ => true
  end.
(** A history in which every operation is plain when it runs. *)
Fixpoint plain_run (x : bool) (st : store) (l : list op) : bool :=
  match l with
  | [] => true
  | o :: r => plain x st o && match run1 jis st o with Some (st', _) => plain_run x st' r | None => true end
  end.
End Jis.
