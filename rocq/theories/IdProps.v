(** C18: Symbols are equal exactly when their names are. *)
From Coq Require Import String ZArith List Bool.
From Verif Require Import Utf8Spec Utf8Model IdModel IdSpec IdProofs.
Import ListNotations.
Open Scope Z_scope.

(** After any history, two [String#to_sym] with any requests in between give the
    same Symbol exactly when the two Strings are the same name.  What is missing
    for the whole property are the refuted cases below. *)
Theorem C18_same_iff_partial rs0 t b1 e1 t1 id1 rs t2 b2 e2 t3 id2 :
  run new rs0 = Some t -> well_formed b1 e1 -> well_formed b2 e2 ->
  to_sym t b1 e1 = Some (t1, id1) -> run t1 rs = Some t2 -> to_sym t2 b2 e2 = Some (t3, id2) ->
  (id1 = id2 <-> same_name b1 e1 b2 e2).
Proof. exact (to_sym_iff rs0 t b1 e1 t1 id1 rs t2 b2 e2 t3 id2). Qed.
Print Assumptions C18_same_iff_partial.

(** The Symbol keeps that name for ever. *)
Theorem C18_name rs0 t b e t1 id rs t2 :
  run new rs0 = Some t -> well_formed b e -> to_sym t b e = Some (t1, id) -> run t1 rs = Some t2 ->
  exists e', sym_to_s t2 id = Some (b, e') /\ same_name b e b e' /\ well_formed b e'.
Proof. exact (to_sym_name rs0 t b e t1 id rs t2). Qed.
Print Assumptions C18_name.

Theorem C18_name_never_changes rs0 t rs t' id n : run new rs0 = Some t -> run t rs = Some t' ->
  sym_to_s t id = Some n -> sym_to_s t' id = Some n.
Proof. exact (names_stay rs0 t rs t' id n). Qed.
Print Assumptions C18_name_never_changes.

(** Interning fails only when all 2^32 - 1 ids are in use. *)
Theorem C18_total rs0 t b e : run new rs0 = Some t -> to_sym t b e = None ->
  Z.of_nat (length (names t)) = 2 ^ 32 - 1.
Proof. exact (to_sym_total rs0 t b e). Qed.
Print Assumptions C18_total.

(** [sym.to_s.to_sym] is [sym], and adds nothing to the table. *)
Theorem C18_round_trip_partial rs t id n : run new rs = Some t -> Forall proper rs -> ~ unnamed id ->
  sym_to_s t id = Some n -> to_sym t (fst n) (snd n) = Some (t, id).
Proof. exact (name_to_sym rs t id n). Qed.
Print Assumptions C18_round_trip_partial.

(** Two entries of [Symbol.all_symbols] with the same name are the same Symbol,
    the five unnamed slots excepted. *)
Theorem C18_all_symbols_partial rs t id1 id2 n1 n2 : run new rs = Some t -> Forall proper rs ->
  ~ unnamed id1 -> ~ unnamed id2 -> sym_to_s t id1 = Some n1 -> sym_to_s t id2 = Some n2 ->
  same_name (fst n1) (snd n1) (fst n2) (snd n2) -> id1 = id2.
Proof. exact (all_symbols_distinct rs t id1 id2 n1 n2). Qed.
Print Assumptions C18_all_symbols_partial.

Theorem C18_ascii_compatible e : ascii_compatible e = true <-> ascii_superset e.
Proof. exact (ascii_compatible_iff e). Qed.
Print Assumptions C18_ascii_compatible.

(** The requests of [String#to_sym] are the proper ones; literals and
    [Marshal.load] make the same. *)
Theorem C18_proper b e : well_formed b e -> exists r, proper r /\ forall t, to_sym t b e = serve t r.
Proof. exact (to_sym_proper b e). Qed.
Print Assumptions C18_proper.
Theorem C18_literal t s e : well_formed s e -> ascii_compatible e = true -> symbol_literal t s e = to_sym t s e.
Proof. exact (literal_to_sym t s e). Qed.
Print Assumptions C18_literal.
Theorem C18_marshal_partial t b e : well_formed b e ->
  (Forall (fun x => x < 128) b -> ascii_compatible e = true -> e = Utf8 \/ e = UsAscii) ->
  marshal_intern t b e = to_sym t b e.
Proof. exact (marshal_to_sym t b e). Qed.
Print Assumptions C18_marshal_partial.

(** The reserved constants are the Symbols of their names, for ever. *)
Theorem C18_reserved rs t s id : run new rs = Some t -> In (s, id) (presets ++ special_gvars) ->
  get_id t (bs s) = Some (t, id).
Proof. exact (reserved rs t s id). Qed.
Print Assumptions C18_reserved.

(** The range check for special global variables answers by name. *)
Theorem C18_special_gvar rs t s t' id : run new rs = Some t -> get_id t s = Some (t', id) ->
  (is_special_gvar id = true <-> exists g, In g (map fst special_gvars) /\ s = bs g).
Proof. exact (special_iff rs t s t' id). Qed.
Print Assumptions C18_special_gvar.

(** Looking up under the shared lock and inserting later under the exclusive one
    is the same as doing both at once. *)
Theorem C18_two_locks rs1 t1 rs2 t2 s : run new rs1 = Some t1 -> run t1 rs2 = Some t2 ->
  get_id_locked t1 t2 s = get_id t2 s.
Proof. exact (locked_ok rs1 t1 rs2 t2 s). Qed.
Print Assumptions C18_two_locks.

(** Different text Symbols have different instance-variable names. *)
Theorem C18_ivar_partial rs t id1 id2 s1 s2 t1 i1 rs' t2 t3 i2 : run new rs = Some t ->
  name_of t id1 = Some (NUtf8 s1) -> ~ unnamed id1 -> name_of t2 id2 = Some (NUtf8 s2) -> ~ unnamed id2 ->
  add_ivar_prefix t id1 = Some (t1, i1) -> run t1 rs' = Some t2 -> add_ivar_prefix t2 id2 = Some (t3, i2) ->
  (i1 = i2 <-> id1 = id2).
Proof. exact (ivar_inj rs t id1 id2 s1 s2 t1 i1 rs' t2 t3 i2). Qed.
Print Assumptions C18_ivar_partial.

(** * Where it is false *)
(** [Symbol.all_symbols] lists five different Symbols named "" from the start, and
    none of them is [:""]. *)
Theorem C18_unnamed_refuted : exists t id1 id2 n t' id, run new [] = Some t /\
  In id1 (all_symbols t) /\ In id2 (all_symbols t) /\ id1 <> id2 /\
  sym_to_s t id1 = Some n /\ sym_to_s t id2 = Some n /\ to_sym t (fst n) (snd n) = Some (t', id) /\ id <> id1 /\ id <> id2.
Proof.
  exists new, 96, 97, ([], UsAscii), (fst (match to_sym new [] UsAscii with Some x => x | None => (new, 0) end)), 101.
  vm_compute. intuition (try discriminate; auto 120).
Qed.
Print Assumptions C18_unnamed_refuted.

(** Two different names, one Symbol: a String that is not valid UTF-8, and the same
    bytes in binary. *)
Theorem C18_invalid_utf8_refuted : exists b e1 e2 t1 t2 id,
  ~ same_name b e1 b e2 /\ to_sym new b e1 = Some (t1, id) /\ to_sym t1 b e2 = Some (t2, id).
Proof.
  exists [255], Utf8, Ascii8.
  exists (fst (match to_sym new [255] Utf8 with Some x => x | None => (new, 0) end)),
         (fst (match to_sym new [255] Utf8 with Some x => x | None => (new, 0) end)), 101.
  split; [|vm_compute; auto]. intros [_ [h|(h & _)]]; [discriminate|]. inversion h. discriminate.
Qed.
Print Assumptions C18_invalid_utf8_refuted.

(** A String argument does not name the Symbol built from the same String (the
    comment at value.rs:2364-2368 says it does): "é" in binary, a valid name. *)
Theorem C18_named_by_string_refuted : exists b e t1 id1 t2 id2, well_formed b e /\
  to_sym new b e = Some (t1, id1) /\ named_by_string t1 b e = Some (t2, id2) /\ id1 <> id2.
Proof.
  exists [195; 169], Ascii8.
  exists (fst (match to_sym new [195; 169] Ascii8 with Some x => x | None => (new, 0) end)), 101.
  exists (fst (match named_by_string (fst (match to_sym new [195; 169] Ascii8 with Some x => x | None => (new, 0) end)) [195; 169] Ascii8 with Some x => x | None => (new, 0) end)), 102.
  split; [split; [repeat constructor; discriminate|split; discriminate]|]. vm_compute. intuition discriminate.
Qed.
Print Assumptions C18_named_by_string_refuted.

(** Nor on a String that is not valid in its encoding. *)
Theorem C18_named_by_invalid_refuted : exists b e t1 id1 t2 id2,
  to_sym new b e = Some (t1, id1) /\ named_by_string t1 b e = Some (t2, id2) /\ id1 <> id2.
Proof.
  exists [255], Utf8.
  exists (fst (match to_sym new [255] Utf8 with Some x => x | None => (new, 0) end)), 101.
  exists (fst (match named_by_string (fst (match to_sym new [255] Utf8 with Some x => x | None => (new, 0) end)) [255] Utf8 with Some x => x | None => (new, 0) end)), 102.
  vm_compute. intuition discriminate.
Qed.
Print Assumptions C18_named_by_invalid_refuted.

(** [Marshal.load] of an ASCII Symbol written with an encoding gives a Symbol that
    is not the one of the same name. *)
Theorem C18_marshal_refuted : exists b e t1 id1 t2 id2, well_formed b e /\
  to_sym new b e = Some (t1, id1) /\ marshal_intern t1 b e = Some (t2, id2) /\ id1 <> id2.
Proof.
  exists (bs "name"), (Sjis 0), new, 4.
  exists (fst (match marshal_intern new (bs "name") (Sjis 0) with Some x => x | None => (new, 0) end)), 101.
  split; [split; [repeat constructor; discriminate|split; discriminate]|]. vm_compute. intuition discriminate.
Qed.
Print Assumptions C18_marshal_refuted.

(** Two different binary attributes share one instance variable (and one setter):
    the names are built from the lossy text. *)
Theorem C18_ivar_refuted : exists rs t id1 id2 t1 i t2 j, run new rs = Some t /\ Forall proper rs /\ id1 <> id2 /\
  add_ivar_prefix t id1 = Some (t1, i) /\ add_ivar_prefix t1 id2 = Some (t1, i) /\
  add_assign_postfix t1 id1 = Some (t2, j) /\ add_assign_postfix t2 id2 = Some (t2, j).
Proof.
  pose (rs := [RBytes [255] Ascii8; RBytes [254] Ascii8]).
  pose (t := match run new rs with Some t => t | None => new end).
  pose (t1 := match add_ivar_prefix t 101 with Some (t, _) => t | None => t end).
  pose (t2 := match add_assign_postfix t1 101 with Some (t, _) => t | None => t end).
  exists rs, t, 101, 102, t1, 103, t2, 104.
  split; [vm_compute; reflexivity|]. split.
  { assert (H : forall x, 128 <= x <= 255 -> proper (RBytes [x] Ascii8)).
    { intros x hx. split; [constructor; [|constructor]|]. { split; [|exact (proj2 hx)]. apply Z.le_trans with 128; [discriminate|exact (proj1 hx)]. }
      split; [discriminate|]. split; [discriminate|]. intros [h _]. inversion h as [|? ? h1 _]; subst.
      exact (Zle_not_lt _ _ (proj1 hx) h1). }
    constructor; [apply H; split; discriminate|]. constructor; [apply H; split; discriminate|constructor]. }
  vm_compute. intuition discriminate.
Qed.
Print Assumptions C18_ivar_refuted.

(** Examples: the same text twice, ASCII in another encoding, the same bytes in two
    encodings, a reserved name. *)
Definition idof (r : option (table * Z)) : Z := match r with Some (_, i) => i | None => 0 end.
Definition tab (r : option (table * Z)) : table := match r with Some (t, _) => t | None => new end.
Example C18_example :
  let a := to_sym new (bs "foo") Utf8 in
  let b := to_sym (tab a) (bs "foo") (Iso8859 1) in
  let c := to_sym (tab b) [195; 169] Utf8 in
  let d := to_sym (tab c) [195; 169] (Iso8859 1) in
  let e := to_sym (tab d) (bs "initialize") UsAscii in
  (idof a, idof b, idof c, idof d, idof e) = (101, 101, 102, 103, 1) /\
  sym_to_s (tab e) 103 = Some ([195; 169], Iso8859 1) /\ sym_to_s (tab e) 101 = Some (bs "foo", UsAscii).
Proof. vm_compute. auto. Qed.
Example C18_utf8_example :
  utf8_ok [226; 130; 172] = true /\ utf8_ok [237; 160; 128] = false /\ utf8_ok [192; 128] = false /\
  utf8_lossy [97; 226; 130; 98; 255] = [97; 239; 191; 189; 98; 239; 191; 189].
Proof. vm_compute. auto. Qed.
