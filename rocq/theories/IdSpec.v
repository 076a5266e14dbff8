(** What a Symbol's name is. *)
From Coq Require Import ZArith List Bool.
From Verif Require Import Utf8Spec IdModel.
Import ListNotations.
Open Scope Z_scope.

(** A byte string that is valid in its declared encoding, as far as the encodings
    whose validity decides the interning path are concerned. *)
Definition well_formed (b : list Z) (e : encoding) : Prop :=
  Forall (fun x => 0 <= x <= 255) b /\
  (e = Utf8 -> utf8_valid b) /\ (e = UsAscii -> Forall (fun x => x < 128) b).

(** Two Strings are the same name: the same bytes in the same encoding, where
    ASCII text is the same in every ASCII-compatible encoding. *)
Definition same_name (b1 : list Z) (e1 : encoding) (b2 : list Z) (e2 : encoding) : Prop :=
  b1 = b2 /\
  (e1 = e2 \/
   Forall (fun x => x < 128) b1 /\ ascii_compatible e1 = true /\ ascii_compatible e2 = true).

(** The five slots of the table that no name was assigned to. *)
Definition unnamed (id : Z) : Prop := 96 <= id <= 100.

(** The requests that come from well-formed Strings through [String#to_sym]: text
    through the string table, and through the byte table only names that are
    neither UTF-8 nor plain ASCII. *)
Definition proper (r : request) : Prop :=
  match r with
  | RStr s => Forall (fun x => 0 <= x <= 255) s /\ utf8_valid s
  | RBytes b e => Forall (fun x => 0 <= x <= 255) b /\ e <> Utf8 /\ e <> UsAscii /\
                  ~ (Forall (fun x => x < 128) b /\ ascii_compatible e = true)
  | RIvar _ | RAssign _ => True
  end.

(** The encodings in which bytes below 128 are the ASCII characters. *)
Definition ascii_superset (e : encoding) : Prop :=
  ~ In e [Utf16Le; Utf16Be; Utf32Le; Utf32Be; Iso2022Jp] /\ forall n, e <> Other n.
