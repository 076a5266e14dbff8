(** C75: Kernel#send runs the method it names, compiled or not. *)
From Coq Require Import ZArith List Bool.
From Verif Require Import ClassModel LookupModel LookupBadProofs ArgModel ArgSpec ArgKwProofs ArgFwdProofs ArgBadProofs
  SendModel SendSpec SendProofs SendArgProofs SendBadProofs.
Import ListNotations.
Open Scope Z_scope.

(** After any history in which all receivers a guard lets through agree on the name. *)
Theorem C75_compiled_partial : forall mm l w g s c n r s1 w1,
  sends mm agree_on start [] fresh_site l w g s -> Z.of_nat (length l) < TWO32 ->
  n <> 0 -> defined (ws w) c = true -> agree_on w g n -> send_at mm g w s c n = (r, s1, w1) ->
  but_missing r (says mm w c n) /\ (~ In (ic_class c) g -> r = says mm w c n).
Proof. exact send_right. Qed.
Print Assumptions C75_compiled_partial.

(** With guards for one class other than the booleans' that is so. *)
Theorem C75_one_class_partial : forall mm l w g s c n r s1 w1,
  sends mm (fun _ _ _ => True) start [] fresh_site l w g s -> Forall one_class l ->
  Z.of_nat (length l) < TWO32 -> n <> 0 -> defined (ws w) c = true -> send_at mm g w s c n = (r, s1, w1) ->
  but_missing r (says mm w c n).
Proof. exact send_one. Qed.
Print Assumptions C75_one_class_partial.

Theorem C75_arguments_partial : forall toary p f l fwd,
  params_ok p -> vals_ok l -> (slots p <= length f)%nat -> (is_simple p = true -> p_req p = length l) ->
  exists r, call_result toary p (bare l) [] r /\
            agrees f (send_simple toary p f (compile_site (bare l) [] fwd) l) r.
Proof. exact send_simple_ok. Qed.
Print Assumptions C75_arguments_partial.

Theorem C75_refuses_partial : forall toary p f l fwd,
  is_simple p = true -> p_req p <> length l -> p_block p = false ->
  send_simple toary p f (compile_site (bare l) [] fwd) l = Err (EArity (p_req p)) /\
  call_result toary p (bare l) [] (inr (EArity (length l))).
Proof. exact send_simple_refuses. Qed.
Print Assumptions C75_refuses_partial.

Theorem C75_splat_partial : forall toary p f a v l,
  params_ok p -> vals_ok l -> single_arg_expand p = false -> (slots p <= length f)%nat ->
  elements a = v :: l -> unflagged l ->
  exists r g, call_result toary p [(VArr l, true)] [] r /\ send_splat_args p f (OArr a) = Some g /\ agrees f g r.
Proof. exact send_splat_ok. Qed.
Print Assumptions C75_splat_partial.

Theorem C75_splat_name_partial : forall name_of a, array_ok a -> unflagged (elements a) -> elements a <> [] ->
  splat_name name_of (OArr a) = builtin_name name_of (OArr a).
Proof. exact splat_name_ok. Qed.
Print Assumptions C75_splat_name_partial.

(** The second class's receivers run the first class's method. *)
Theorem C75_classes_refuted : exists l w g s,
  sends 90 whatever start [] fresh_site l w g s /\ (length l <= 6)%nat /\ defined (ws w) 6 = true /\
  fst (fst (send_at 90 g w s 6 70)) = Runs 100 /\ says 90 w 6 70 = Runs 200.
Proof. exact bad_set. Qed.
Print Assumptions C75_classes_refuted.

(** false runs true's method. *)
Theorem C75_booleans_refuted : exists l w s,
  sends 90 whatever start [] fresh_site l w [BOOL] s /\ (length l <= 4)%nat /\ defined (ws w) FALSE = true /\
  fst (fst (send_at 90 [BOOL] w s FALSE 70)) = Runs 100 /\ says 90 w FALSE 70 = Runs 200.
Proof. exact bad_bool. Qed.
Print Assumptions C75_booleans_refuted.

(** method_missing is not called by compiled code. *)
Theorem C75_method_missing_refuted : exists l w s,
  sends 90 whatever start [] fresh_site l w [5] s /\ Forall one_class l /\ (length l <= 4)%nat /\ defined (ws w) 5 = true /\
  fst (fst (send_at 90 [5] w s 5 70)) = NoMethod /\ says 90 w 5 70 = RunsMissing 300 /\ fst (interpreted 90 w 5 70) = RunsMissing 300.
Proof. exact bad_missing. Qed.
Print Assumptions C75_method_missing_refuted.

Theorem C75_numbers_refuted : let p := par 2 0 None 0 [] false false in
  send_simple no_conv p [Junk; Junk] (compile_site (bare [o 1]) [] false) [o 1] = Err (EArity 2) /\
  wrong no_conv p (bare [o 1]) [] [Junk; Junk] (Err (EArity 2)).
Proof. exact bad_numbers. Qed.
Print Assumptions C75_numbers_refuted.

(** Keywords in flight become an argument. *)
Theorem C75_keywords_refuted : forall v b, let a := mkarr (v :: flagged) b (Some v) in
  array_ok a /\ send_splat_args kwm [Junk] (OArr a) = Some (Err (EArity 1)) /\
  builtin_splat_args kwm [Junk] (OArr a) = Some (Ok [Val (o 5)]) /\
  call_result no_conv kwm [(VArr flagged, true)] [] (inl [Val (o 5)]) /\
  wrong no_conv kwm [(VArr flagged, true)] [] [Junk] (Err (EArity 1)).
Proof. exact bad_flag. Qed.
Print Assumptions C75_keywords_refuted.

(** An Array that has become empty, and an object that is no Array, crash the process. *)
Theorem C75_empty_refuted : forall name_of v n, name_of v = Some n -> let a := mkarr [] false (Some v) in
  array_ok a /\ splat_name name_of (OArr a) = Named n /\ builtin_name name_of (OArr a) = NoName /\
  forall p f, send_splat_args p f (OArr a) = None.
Proof. exact bad_empty. Qed.
Print Assumptions C75_empty_refuted.

Theorem C75_operand_refuted : forall name_of z n, name_of (o z) = Some n ->
  splat_name name_of (OVal (o z)) = Named n /\ builtin_name name_of (OVal (o z)) = Named n /\
  builtin_splat_args (par 0 0 None 0 [] false false) [] (OVal (o z)) = Some (Ok []) /\
  forall p f, send_splat_args p f (OVal (o z)) = None.
Proof. exact bad_operand. Qed.
Print Assumptions C75_operand_refuted.

(** Six names through the four entries, the first one redefined in between. *)
Example C75_ex : let send := fun x n => let '(w, s) := x in let '(r, s, w) := send_at 90 [5] w s 5 n in (r, (w, s)) in
  let w := lived [Classes (NewClass OBJECT false); Def 5 71 101 Public; Def 5 72 102 Private; Def 5 73 103 Public;
                  Def 5 74 104 Public; Def 5 75 105 Public; Def 5 76 106 Protected] in
  let x := (w, fresh_site) in
  let '(a, x) := send x 71 in let '(_, x) := send x 72 in let '(_, x) := send x 73 in let '(_, x) := send x 74 in
  let '(b, x) := send x 75 in let '(c, x) := send x 76 in let '(d, x) := send x 76 in let '(e, x) := send x 74 in
  let k := map sname (scache (snd x)) in
  let '(h, _) := send (next (fst x) (Def 5 71 201 Public), snd x) 71 in
  a = Runs 101 /\ b = Runs 105 /\ c = Runs 106 /\ d = Runs 106 /\ e = Runs 104 /\ k = [76; 72; 73; 74] /\ h = Runs 201.
Proof. vm_compute. repeat split. Qed.

Example C75_ex_args : let p := par 1 1 None 0 [(1, false)] false false in
  send_simple no_conv p (repeat Junk 3) (compile_site (bare [o 7]) [] false) [o 7] = Ok [Val (o 7); Unset; Unset] /\
  send_splat_args p (repeat Junk 3) (OArr (mkarr [o 70; o 7; o 8] false (Some (o 70)))) = Some (Ok [Val (o 7); Val (o 8); Unset]) /\
  builtin_splat_args p (repeat Junk 3) (OArr (mkarr [o 70; o 7; o 8] false (Some (o 70)))) = Some (Ok [Val (o 7); Val (o 8); Unset]).
Proof. repeat split. Qed.
