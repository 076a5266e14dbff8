(** C38, C39, C57: Marshal. *)
From Coq Require Import String Ascii ZArith List Bool Lia.
From Verif Require Import Utf8Spec Utf8Proofs IdModel EncModel MarshalModel MarshalSpec MarshalRProofs MarshalLoadProofs MarshalIntProofs MarshalBadProofs.
From Verif Require Import FtextModel FtextSpec FtextProofs.
Import ListNotations.
Open Scope Z_scope.
Local Notation len l := (Z.of_nat (length l)).

(** * C38: Integers.  Missing: Integers of 2^35 - 16 bits (4 GB) and more. *)
Theorem C38_roundtrip_partial : forall fmt prs plain sub deep n k,
  Z.log2 (Z.abs n) < 2 ^ 35 - 16 ->
  exists out, dump fmt (S k) (fst (int_graph n)) (snd (int_graph n)) = Some out /\
              load prs plain sub deep out = Ok (snd (int_graph n), fst (int_graph n)).
Proof. exact int_roundtrip. Qed.
(** The number of 16-bit words is cut to 32 bits: there is a BigInt that loads as 0. *)
Theorem C38_huge_refuted : forall fmt prs plain sub deep k,
  exists n out, dump fmt (S k) [OBig n] (VRef 0) = Some out /\
    load prs plain sub deep out = Ok (VFix 0, []) /\ n <> 0 /\ ~ small n.
Proof. exact huge_int. Qed.

(** * C39: graphs. *)
(** The dump of such a graph never fails. *)
Theorem C39_dump : forall fmt plain sub h v, graph_ok plain sub h v ->
  exists out, dump fmt (S (length h)) h v = Some out.
Proof. exact (fun fmt plain sub => dump_succeeds fmt plain sub (fun _ _ _ => false)). Qed.
(** Missing: the values excluded by [graph_ok] (each has a refutation below), and
    dumps of 2 GB and more. *)
Theorem C39_roundtrip_partial : forall dtoa prs plain sub deep h v fuel out,
  dtoa_ok dtoa prs -> parse_ok prs -> graph_ok plain sub h v ->
  dump (marshal_text dtoa) fuel h v = Some out -> len out < 2 ^ 31 ->
  exists v' h', load prs plain sub deep out = Ok (v', h') /\ isomorphic h v h' v'.
Proof. exact (fun dtoa prs plain sub deep h v fuel out hd hp => load_dump _ prs plain sub deep h v fuel out (marshal_text_ok dtoa prs hd hp)). Qed.
(** The same over any text for Floats that is read back. *)
Theorem C39_roundtrip_text_partial : forall fmt prs plain sub deep h v fuel out,
  text_ok fmt prs -> graph_ok plain sub h v ->
  dump fmt fuel h v = Some out -> len out < 2 ^ 31 ->
  exists v' h', load prs plain sub deep out = Ok (v', h') /\ isomorphic h v h' v'.
Proof. exact load_dump. Qed.
(** The text of a Float is the shortest text of the dtoa crate with the point moved:
    it is read as the same Float. *)
Theorem C39_float_text : forall dtoa prs, dtoa_ok dtoa prs -> parse_ok prs -> text_ok (marshal_text dtoa) prs.
Proof. exact marshal_text_ok. Qed.

(** [2**40, s, s] loads as [2**40, s, 2**40]: an Integer of more than 31 bits takes a
    link slot when it is read, not when it is written. *)
Theorem C39_big_refuted : forall fmt prs plain sub deep,
  loads fmt prs plain sub deep g_big (VRef 0) (Ok (VRef 0, g_big')) /\ ~ isomorphic g_big (VRef 0) g_big' (VRef 0).
Proof. exact bad_big. Qed.
(** [s, s] with s in ISO-8859-1 loads as [s, "ISO-8859-1"]. *)
Theorem C39_encoding_refuted : forall fmt prs plain sub deep,
  loads fmt prs plain sub deep g_enc (VRef 0) (Ok (VRef 0, g_enc')) /\ ~ isomorphic g_enc (VRef 0) g_enc' (VRef 0).
Proof. exact bad_enc. Qed.
(** [/a/, s, s] does not load. *)
Theorem C39_regexp_refuted : forall fmt prs plain sub deep, loads fmt prs plain sub deep g_reg (VRef 0) Raise.
Proof. exact bad_reg. Qed.
(** [t, t], t a String with an instance variable that holds a String. *)
Theorem C39_ivar_refuted : forall fmt prs plain sub deep,
  loads fmt prs plain sub deep g_iv (VRef 0) (Ok (VRef 0, g_iv')) /\ ~ isomorphic g_iv (VRef 0) g_iv' (VRef 0).
Proof. exact bad_iv. Qed.
(** A compare_by_identity Hash with two equal Strings as keys loses one. *)
Theorem C39_identity_refuted : forall fmt prs plain sub deep,
  loads fmt prs plain sub deep g_id (VRef 0) (Ok (VRef 0, g_id')) /\ ~ isomorphic g_id (VRef 0) g_id' (VRef 0).
Proof. exact bad_id. Qed.
(** A Symbol in UTF-16LE becomes another Symbol. *)
Theorem C39_symbol_refuted : forall fmt prs plain sub deep,
  loads fmt prs plain sub deep [] (VSym (SByt [97; 0] Utf16Le)) (Ok (VSym (SStr [97; 0]), [])) /\
  ~ isomorphic [] (VSym (SByt [97; 0] Utf16Le)) [] (VSym (SStr [97; 0])).
Proof. exact bad_sym. Qed.
(** An instance of A::S, S < String, does not load. *)
Theorem C39_nested_refuted : forall fmt prs plain sub deep,
  loads fmt prs plain sub deep [OStr (Some (bs "A::S")) (bs "x") Ascii8 []] (VRef 0) Raise.
Proof. exact bad_nested. Qed.
(** An instance of a subclass of String loses its encoding. *)
Theorem C39_subclass_refuted : forall fmt prs plain deep,
  loads fmt prs plain (fun _ => true) deep g_sub (VRef 0) (Ok (VRef 0, g_sub')) /\
  ~ isomorphic g_sub (VRef 0) g_sub' (VRef 0).
Proof. exact bad_sub. Qed.
(** A String of 4 GB loads as the empty String. *)
Theorem C39_huge_string_refuted : forall fmt prs plain sub deep b, len b = 2 ^ 32 ->
  exists out, dump fmt 1 [OStr None b Ascii8 []] (VRef 0) = Some out /\
    load prs plain sub deep out = Ok (VRef 0, [OStr None [] Ascii8 []]).
Proof. exact huge_string. Qed.

(** * C57: loading arbitrary bytes *)
(** Load stops on all bytes, and a loaded value does not dangle. *)
Theorem C57_terminates : forall prs plain sub deep d, len d < 2 ^ 62 ->
  match load prs plain sub deep d with Fuel => False | Ok (v, h) => vin (length h) v | _ => True end.
Proof. exact load_stops. Qed.
(** Missing: bytes of 128 and more, by the next theorem. *)
Theorem C57_no_panic_partial : forall prs plain sub deep d, len d < 2 ^ 62 ->
  Forall (fun b => 0 <= b < 128) d -> load prs plain sub deep d <> Panic.
Proof. exact load_no_panic. Qed.
(** A negative length of a String or of an Array panics. *)
Theorem C57_panic_refuted : forall prs plain sub deep,
  load prs plain sub deep [4; 8; 34; 250] = Panic /\ load prs plain sub deep [4; 8; 91; 250] = Panic.
Proof. exact bad_panic. Qed.

(** * Examples *)
Definition no_text : list Z -> option Z := fun _ => None.
Definition all_plain : list Z -> bool := fun _ => true.
Definition no_deep : heap -> nat -> nat -> bool := fun _ _ _ => false.
(** a = ["hi", "hi" (the same), a, 300, -70000, :ab, :ab, h, Foo], h = {1 => "hi", "hi" => nil} with default a. *)
Definition ex_graph : heap :=
  [OArr None [VRef 1; VRef 1; VRef 0; VFix 300; VFix (-70000); VSym (SStr (bs "ab")); VSym (SStr (bs "ab")); VRef 2; VRef 3] [];
   OStr None (bs "hi") Utf8 [];
   OHash None [(VFix 1, VRef 1); (VRef 1, VNil)] (Some (VRef 0)) false [(SStr (bs "@x"), VRef 3)];
   OObj (bs "Foo") [(SStr (bs "@y"), VRef 0)]].
Example C39_example :
  exists out, dump (fun _ => []) 5 ex_graph (VRef 0) = Some out /\ len out = 65 /\
    load no_text all_plain all_plain no_deep out = Ok (VRef 0, ex_graph).
Proof. eexists. split; [vm_compute; reflexivity|]. split; vm_compute; reflexivity. Qed.
Example C39_graph_example : graph_ok all_plain all_plain ex_graph (VRef 0).
Proof.
  split; [|cbn; lia]. unfold ex_graph. repeat apply Forall_cons; try apply Forall_nil; cbn [obj_ok class_ok].
  all: repeat split; cbn; auto; try lia.
  all: repeat constructor; cbn; try lia; try discriminate; try (apply utf8_ok_iff; [repeat constructor; lia | vm_compute; reflexivity]).
  all: intros [e|[]]; discriminate.
Qed.
Example C38_example :
  dump (fun _ => []) 1 (fst (int_graph 300)) (snd (int_graph 300)) = Some [4; 8; 105; 2; 44; 1] /\
  dump (fun _ => []) 1 (fst (int_graph (-129))) (snd (int_graph (-129))) = Some [4; 8; 105; 255; 127] /\
  dump (fun _ => []) 1 (fst (int_graph (- 2 ^ 70))) (snd (int_graph (- 2 ^ 70))) = Some [4; 8; 108; 45; 10; 0; 0; 0; 0; 0; 0; 0; 0; 64; 0] /\
  load no_text all_plain all_plain no_deep [4; 8; 108; 45; 10; 0; 0; 0; 0; 0; 0; 0; 0; 64; 0] = Ok (VRef 0, [OBig (- 2 ^ 70)]).
Proof. repeat split; vm_compute; reflexivity. Qed.
(** 1.5e300 is written 1.5e300, 0.00012 as 0.00012, 1e-7 as 1e-7, 100.0 as 1e2. *)
Example C39_text_example :
  map (fun t => marshal_text (fun _ => bs t) 1) ["1.5e300"; "0.00012"; "1e-7"; "100.0"; "12.5"]%string =
  map bs ["1.5e300"; "0.00012"; "1e-7"; "1e2"; "12.5"]%string.
Proof. vm_compute. reflexivity. Qed.
(** Truncated and wrong data raise. *)
Example C57_example :
  load no_text all_plain all_plain no_deep [4; 8; 91; 7; 105; 6] = Raise /\
  load no_text all_plain all_plain no_deep [4; 9; 48] = Raise /\
  load no_text all_plain all_plain no_deep [4; 8; 64; 6] = Raise /\
  load no_text all_plain all_plain no_deep [4; 8; 91; 7; 64; 0; 84] = Ok (VRef 0, [OArr None [VRef 0; VBool true] []]).
Proof. repeat split; vm_compute; reflexivity. Qed.

Print Assumptions C38_roundtrip_partial.
Print Assumptions C38_huge_refuted.
Print Assumptions C39_dump.
Print Assumptions C39_roundtrip_partial.
Print Assumptions C39_roundtrip_text_partial.
Print Assumptions C39_float_text.
Print Assumptions C39_big_refuted.
Print Assumptions C39_encoding_refuted.
Print Assumptions C39_regexp_refuted.
Print Assumptions C39_ivar_refuted.
Print Assumptions C39_identity_refuted.
Print Assumptions C39_symbol_refuted.
Print Assumptions C39_nested_refuted.
Print Assumptions C39_subclass_refuted.
Print Assumptions C39_huge_string_refuted.
Print Assumptions C57_terminates.
Print Assumptions C57_no_panic_partial.
Print Assumptions C57_panic_refuted.
