(** C82, C83: method dispatch in compiled code, whole programs. *)
From Coq Require Import List Arith Bool PeanoNat.
From Verif Require Import DispModel DispSpec DispProofs DispRunProofs DispBackProofs
  DispUnitProofs DispBadProofs.
Import ListNotations.

(** The interpreter's result is the compiled result. *)
Theorem C82_dispatch_partial : forall P pol n w f o args w' v,
  sstart P n w f o args = Some (w', v) -> calm w' ->
  start P pol n w f o args = Some (w', v).
Proof. exact start_sim. Qed.
Print Assumptions C82_dispatch_partial.

(** The compiled result is the interpreter's result. *)
Theorem C82_compiled_partial : forall P pol n w f o args w' v,
  start P pol n w f o args = Some (w', v) -> calm w' ->
  sstart P n w f o args = Some (w', v).
Proof. exact start_back. Qed.
Print Assumptions C82_compiled_partial.

(** A method that redefines two methods and calls itself while it is
    running. *)
Example C82_ex :
  option_map snd (sstart call_prog 20 fib_world 1 5 []) = Some 14
  /\ option_map snd (start call_prog (eager false) 20 fib_world 1 5 []) = Some 14
  /\ option_map (fun r => w_quiet (fst r)) (sstart call_prog 20 fib_world 1 5 []) = Some true
  /\ option_map snd (start call_prog (eager true) 20 fib_world 1 5 []) = Some 14.
Proof. exact call_right. Qed.

(** A singleton method is defined between two calls. *)
Theorem C82_singleton_refuted :
  option_map snd (sstart sing_prog 20 sing_world 1 9 [5; 1]) = Some 13
  /\ option_map snd (start sing_prog (eager false) 20 sing_world 1 9 [5; 1]) = Some 12.
Proof. exact singleton_wrong. Qed.
Print Assumptions C82_singleton_refuted.

(** A conversion inside an instruction redefines the method. *)
Theorem C82_helper_refuted :
  option_map snd (sstart help_prog 20 help_world 1 9 [5]) = Some 13
  /\ option_map snd (start help_prog (eager false) 20 help_world 1 9 [5]) = Some 12.
Proof. exact helper_wrong. Qed.
Print Assumptions C82_helper_refuted.

(** A fiber recompiles the method that resumed it. *)
Theorem C82_fiber_refuted :
  option_map snd (sstart fib_prog 20 fib_world 1 5 []) = Some 14
  /\ option_map snd (start fib_prog (eager false) 20 fib_world 1 5 []) = Some 12.
Proof. exact fiber_wrong. Qed.
Print Assumptions C82_fiber_refuted.

(** After any completed call the registered units that count as current are
    current. *)
Theorem C83_units_partial : forall P pol n w f o args j' w' v cv,
  invoke P pol (run P pol n) jit0 w f (cls w o) o args = Some (j', w', v, cv) ->
  sound_units j' w'.
Proof. exact call_units. Qed.
Print Assumptions C83_units_partial.

(** The code entered by the next call is the compilation of that body for
    that class, and uses only current resolutions when its word is current. *)
Theorem C83_enter_partial : forall P pol n w f o args j' w' v cv,
  invoke P pol (run P pol n) jit0 w f (cls w o) o args = Some (j', w', v, cv) ->
  forall g c x body j2 F code,
  p_meth P g = KBody body -> enter P pol j' w' g c x body = (j2, Some F, code) ->
  exists u, j_units j2 g c = Some u /\ u_id u = fr_uid F /\ u_code u = code
    /\ (exists o', wf P (u_entries u) (Some (Facts false [Some c])) body code o')
    /\ (j_word j2 (fr_uid F) = w_ver w' -> fresh w' u).
Proof. exact enter_units. Qed.
Print Assumptions C83_enter_partial.

(** A version guard lets compiled code go on only if its word is current, or
    if the unit registered for the class self has now is valid. *)
Theorem C83_guard : forall P pol j w fr j1,
  version_guard P pol j w fr = (true, j1) ->
  j_word j (fr_uid fr) = w_ver w
  \/ exists u, j_units j (fr_fid fr) (cls w (fr_self fr)) = Some u
       /\ valid w u = true /\ j_word j1 (u_id u) = w_ver w.
Proof. exact guard_passed. Qed.
Print Assumptions C83_guard.

(** The unit was compiled a second time, with the new resolutions. *)
Example C83_ex :
  match invoke call_prog (eager false) (run call_prog (eager false) 20) jit0 fib_world 1 1 5 [] with
  | Some (j, w, _, _) =>
      match j_units j 1 1 with
      | Some u => Some (u_id u, u_entries u, j_word j (u_id u), w_ver w)
      | None => None
      end
  | None => None
  end = Some (2, [Entry 1 2 5; Entry 1 3 6], 2, 2).
Proof. exact call_recompiled. Qed.
