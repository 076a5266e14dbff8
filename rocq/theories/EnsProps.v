(** C84, C85: begin, rescue, else, ensure and the exits that cross them. *)
From Coq Require Import Arith Bool List.
From Verif Require Import EnsModel EnsSpec EnsTidySpec EnsProofs EnsSimProofs
  EnsTidyProofs EnsBadProofs.
Import ListNotations.

(** What the program means is what the generated code does: the same events
    in the same order and the same result. *)
Theorem C84_exits_partial : forall P, loads P -> forall n f tr r,
  srun_prog P n f = Some (tr, r, true) ->
  exists m, trun_prog P m f = Some (tr, r).
Proof. exact prog_sim. Qed.
Print Assumptions C84_exits_partial.

(** And nothing else. *)
Theorem C84_only_partial : forall P, loads P -> forall n f tr r m tr' r',
  srun_prog P n f = Some (tr, r, true) ->
  trun_prog P m f = Some (tr', r') -> tr' = tr /\ r' = r.
Proof. exact prog_agree. Qed.
Print Assumptions C84_only_partial.

(** A throw through two ensure bodies, a break out of a loop through one, a
    retry, and a return out of a block. *)
Example C84_ex :
  trun_prog p_good 40 0
    = Some ([(15, 0); (10, 0); (9, 0); (8, 0); (100, 0); (7, 100); (100, 0);
             (6, 0); (4, 0); (3, 0); (2, 0); (1, 0)], RVal 11)
  /\ srun_prog p_good 40 0
    = Some ([(15, 0); (10, 0); (9, 0); (8, 0); (100, 0); (7, 100); (100, 0);
             (6, 0); (4, 0); (3, 0); (2, 0); (1, 0)], RVal 11, true)
  /\ loads p_good.
Proof. exact good_run. Qed.

(** With ensure bodies of actions that never raise, no retry out of a begin
    with ensure, no else next to an ensure, and no begin with clauses only
    under an ensure, every run is right. *)
Theorem C85_tidy_partial : forall P, loads P -> tidy_prog P ->
  forall n f tr r q, srun_prog P n f = Some (tr, r, q) ->
  q = true /\ exists m, trun_prog P m f = Some (tr, r).
Proof. exact tidy_sim. Qed.
Print Assumptions C85_tidy_partial.

Example C85_ex : tidy_prog p_good.
Proof. exact good_tidy. Qed.

(** All the programs below load. *)
Theorem C84_load :
  loads p_return /\ loads p_else /\ loads p_retry /\ loads p_break
  /\ loads p_nested /\ loads p_hidden /\ loads p_local /\ loads p_dropped
  /\ loads p_stale /\ loads p_again.
Proof. exact bad_load. Qed.
Print Assumptions C84_load.

(** A return runs the ensure body inside the range of the rescue clauses: a
    raise in it is rescued by them, and it runs twice. *)
Theorem C84_return_refuted :
  trun_prog p_return 40 0
    = Some ([(100, 0); (2, 0); (1, 100); (100, 0)], RRaise 100)
  /\ srun_prog p_return 40 0 = Some ([(100, 0)], RRaise 100, false).
Proof. exact bad_return. Qed.
Print Assumptions C84_return_refuted.

(** A raise in the else clause skips the ensure body. *)
Theorem C84_else_refuted :
  trun_prog p_else 40 0 = Some ([(100, 0)], RRaise 100)
  /\ srun_prog p_else 40 0 = Some ([(3, 0); (100, 0)], RRaise 100, false).
Proof. exact bad_else. Qed.
Print Assumptions C84_else_refuted.

(** A retry skips the ensure body between. *)
Theorem C84_retry_refuted :
  trun_prog p_retry 40 0 = Some ([(100, 0); (1, 100); (100, 0)], RVal 0)
  /\ srun_prog p_retry 40 0
    = Some ([(100, 0); (2, 0); (1, 100); (100, 0)], RVal 0, false).
Proof. exact bad_retry. Qed.
Print Assumptions C84_retry_refuted.

(** A break in an ensure body leaves the loop around the return, not the one
    around the begin. *)
Theorem C84_break_refuted :
  trun_prog p_break 40 0
    = Some ([(4, 0); (3, 0); (2, 0); (1, 0)], RVal 0)
  /\ srun_prog p_break 40 0 = Some ([(4, 0); (2, 0); (1, 0)], RVal 0, false).
Proof. exact bad_break. Qed.
Print Assumptions C84_break_refuted.

(** A begin/ensure inside an ensure body that runs for a throw goes on with
    the throw in the middle of the outer ensure body. *)
Theorem C84_nested_refuted :
  trun_prog p_nested 40 0 = Some ([(2, 0); (1, 0)], RVal 0)
  /\ srun_prog p_nested 40 0
    = Some ([(3, 0); (2, 0); (1, 0)], RVal 0, false).
Proof. exact bad_nested. Qed.
Print Assumptions C84_nested_refuted.

(** A begin with only rescue hides the ensure around it from a throw. *)
Theorem C84_hidden_refuted :
  trun_prog p_hidden 40 0 = Some ([], RVal 0)
  /\ srun_prog p_hidden 40 0 = Some ([(3, 0)], RVal 0, false).
Proof. exact bad_hidden. Qed.
Print Assumptions C84_hidden_refuted.

(** return x returns what the ensure body assigns to x. *)
Theorem C84_local_refuted :
  trun_prog p_local 40 0 = Some ([], RVal 2)
  /\ srun_prog p_local 40 0 = Some ([], RVal 1, false).
Proof. exact bad_local. Qed.
Print Assumptions C84_local_refuted.

(** A break out of a block called by an ensure body ends the throw it runs
    for. *)
Theorem C84_dropped_refuted :
  trun_prog p_dropped 40 0 = Some ([(9, 0)], RVal 0)
  /\ srun_prog p_dropped 40 0 = Some ([], RVal 0, false).
Proof. exact bad_dropped. Qed.
Print Assumptions C84_dropped_refuted.

(** An unwinding ended by a return in an ensure body goes on in a later call
    whose frame is at the same address. *)
Theorem C84_stale_refuted :
  trun_prog p_stale 40 0 = Some ([(1, 0)], RVal 1)
  /\ srun_prog p_stale 40 0 = Some ([(1, 0)], RVal 9, false).
Proof. exact bad_stale. Qed.
Print Assumptions C84_stale_refuted.

(** A throw ended by a raise in an ensure body, rescued in the same method,
    goes on at the end of the next ensure body. *)
Theorem C84_again_refuted :
  trun_prog p_again 40 0 = Some ([(2, 0); (1, 100); (100, 0)], RVal 0)
  /\ srun_prog p_again 40 0
    = Some ([(4, 0); (3, 0); (2, 0); (1, 100); (100, 0)], RVal 0, false).
Proof. exact bad_again. Qed.
Print Assumptions C84_again_refuted.
