(** What it means that Marshal.load gives back the graph that was dumped. *)
From Coq Require Import String Ascii ZArith List Bool.
From Verif Require Import Utf8Spec IdModel MarshalModel.
From Verif Require ValueModel.
Import ListNotations.
Open Scope Z_scope.

(** The references held by an object. *)
Definition slots (o : obj) : list val :=
  match o with
  | OBig _ | OFlo _ => []
  | OStr _ _ _ iv | OObj _ iv | OReg _ _ _ iv => map snd iv
  | OArr _ l iv => l ++ map snd iv
  | OHash _ l d _ iv =>
      flat_map (fun p => [fst p; snd p]) l ++ match d with Some x => [x] | None => [] end ++ map snd iv
  end.

(** The objects that can be reached from [v]. *)
Inductive reach (h : heap) (v : val) : nat -> Prop :=
| reach_root a : v = VRef a -> reach h v a
| reach_slot a o b : reach h v a -> nth_error h a = Some o -> In (VRef b) (slots o) -> reach h v b.

(** A NaN is a NaN, whatever its payload. *)
Definition canon (b : Z) : Z := if f_nan b then NAN else b.

(** Renaming the addresses in a value and in an object. *)
Definition vmap (f : nat -> nat) (v : val) : val := match v with VRef a => VRef (f a) | _ => v end.
Definition ivmap (f : nat -> nat) (iv : list (sym * val)) : list (sym * val) :=
  map (fun p => (fst p, vmap f (snd p))) iv.
Definition omap (f : nat -> nat) (o : obj) : obj :=
  match o with
  | OBig n => OBig n
  | OFlo b => OFlo (canon b)
  | OStr c b e iv => OStr c b e (ivmap f iv)
  | OArr c l iv => OArr c (map (vmap f) l) (ivmap f iv)
  | OHash c l d i iv =>
      OHash c (map (fun p => (vmap f (fst p), vmap f (snd p))) l) (option_map (vmap f) d) i (ivmap f iv)
  | OObj c iv => OObj c (ivmap f iv)
  | OReg s p e iv => OReg s p e (ivmap f iv)
  end.

(** Same values, same sharing, same cycles: [f] maps the objects of one graph to
    different objects of the other, with the same contents up to [f]. *)
Definition isomorphic (h : heap) (v : val) (h' : heap) (v' : val) : Prop :=
  exists f, v' = vmap f v /\
    (forall a b, reach h v a -> reach h v b -> f a = f b -> a = b) /\
    (forall a, reach h v a -> exists o, nth_error h a = Some o /\ nth_error h' (f a) = Some (omap f o)).

(** The representation of values: a Float with an inline encoding is inline, an
    Integer of 63 bits is inline, references point into the heap. *)
Definition small (n : Z) : Prop := - 2 ^ 62 <= n < 2 ^ 62.
(** The Integer [n] as a graph. *)
Definition int_graph (n : Z) : heap * val :=
  if (- 2 ^ 62 <=? n) && (n <? 2 ^ 62) then ([], VFix n) else ([OBig n], VRef 0).
Definition float_word (b : Z) : Prop := 0 <= b < 2 ^ 64.

(** Symbols: text, or bytes that are not ASCII in the binary encoding. *)
Definition sym_ok (s : sym) : Prop :=
  match s with
  | SStr b => utf8_valid b
  | SByt b e => e = Ascii8 /\ ~ Forall (fun x => x < 128) b
  end.

Definition val_ok (h : heap) (v : val) : Prop :=
  match v with
  | VNil | VBool _ => True
  | VFix n => - 2 ^ 30 <= n < 2 ^ 30
  | VFlo b => float_word b /\ ValueModel.enc_flonum b <> None
  | VSym s => sym_ok s
  | VRef a => (a < length h)%nat
  end.

(** Instance variables: different names, none called E or encoding. *)
Definition ivars_ok (h : heap) (iv : list (sym * val)) : Prop :=
  NoDup (map fst iv) /\
  Forall (fun p => sym_ok (fst p) /\ sym_name (fst p) <> bs "E" /\ sym_name (fst p) <> bs "encoding" /\
                   val_ok h (snd p)) iv.

(** A value that takes no slot in the link table. *)
Definition slotless (v : val) : Prop := match v with VRef _ | VFlo _ => False | _ => True end.

(** What a key of a Hash is compared by; [None] for the containers. *)
Inductive view := WImm (v : val) | WBig (n : Z) | WFlo (b : Z) | WStr (b : list Z) | WId (a : nat).
Definition key_view (h : heap) (v : val) : option view :=
  match v with
  | VRef a =>
      match nth_error h a with
      | Some (OBig n) => Some (WBig n)
      | Some (OFlo b) => Some (if f_nan b then WId a else WFlo b)
      | Some (OStr _ b _ _) => Some (WStr b)
      | Some (OObj _ _) => Some (WId a)
      | _ => None
      end
  | _ => Some (WImm v)
  end.
Definition keys_ok (h : heap) (l : list (val * val)) : Prop :=
  NoDup (map (fun p => key_view h (fst p)) l) /\ Forall (fun p => key_view h (fst p) <> None) l.

Section Ok.
Variables (fmt : Z -> list Z) (prs : list Z -> option Z) (plain sub : list Z -> bool).

(** A class that can be named by one constant. *)
Definition class_ok (c : option (list Z)) : Prop :=
  match c with
  | None => True
  | Some n => utf8_valid n /\ sub n = true /\ has_colons n = false /\ n <> bs "Hash"
  end.

(** The objects that survive: strings in the three basic encodings (a string of a
    subclass only when binary), arrays, hashes with different scalar keys, plain
    objects. *)
Definition obj_ok (h : heap) (o : obj) : Prop :=
  match o with
  | OBig n => ~ small n
  | OFlo b => float_word b /\ ValueModel.enc_flonum b = None
  | OStr None b e iv => In e [Ascii8; Utf8; UsAscii] /\ ivars_ok h iv /\ Forall (fun p => slotless (snd p)) iv
  | OStr (Some c) b e iv => class_ok (Some c) /\ e = Ascii8 /\ ivars_ok h iv
  | OArr c l iv => class_ok c /\ Forall (val_ok h) l /\ ivars_ok h iv
  | OHash c l d i iv =>
      class_ok c /\ Forall (fun p => val_ok h (fst p) /\ val_ok h (snd p)) l /\ keys_ok h l /\
      match d with Some x => val_ok h x | None => True end /\ ivars_ok h iv
  | OObj c iv => utf8_valid c /\ plain c = true /\ ivars_ok h iv
  | OReg _ _ _ _ => False
  end.
Definition graph_ok (h : heap) (v : val) : Prop := Forall (obj_ok h) h /\ val_ok h v.

(** The text of a finite non-zero float is read back as that float, and is neither
    one of the special texts nor cut short. *)
Definition text_ok : Prop := forall b, float_word b ->
  ValueModel.f64_eq_zero b = false -> f_inf b = false -> f_nan b = false ->
  prs (fmt b) = Some b /\ Forall (fun x => 0 < x < 128) (fmt b) /\
  ~ In (fmt b) [bs "inf"; bs "-inf"; bs "nan"; bs "-0"; bs "0"].
End Ok.
