(** C32: the write buffer neither loses, duplicates nor reorders bytes. *)

From Coq Require Import ZArith Bool List.
From Verif Require Import WbufModel WbufSpec WbufProofs.
Import ListNotations.
Local Open Scope Z_scope.

(** What the kernel has taken, followed by what is buffered, is exactly what has been
    accepted, in the order in which it was accepted - for any calls of write in flight at
    the same time, any short writes, EINTR, EAGAIN, errors and signals, any flushes and
    changes of sync, and calls given up half-way.  Missing: write_nonblock with something
    in the buffer, and an object collected with something in the buffer; both break it. *)
Theorem C32_conserved_partial s log : history plain s log ->
  out (wb s) ++ buf (wb s) = accepted log.
Proof. exact (conserved s log). Qed.
Print Assumptions C32_conserved_partial.

(** However often it was tried, a call has had accepted a prefix of its data, once; ... *)
Theorem C32_prefix (ok : state -> label -> Prop) s log i : history ok s log ->
  from_call i log = firstn (done_of (calls s i)) (data_of (calls s i)).
Proof. exact (each_call ok s log i). Qed.
Print Assumptions C32_prefix.
(** ... all of it if the call returned; ... *)
Theorem C32_complete (ok : state -> label -> Prop) s log i data k : history ok s log ->
  calls s i = Ended data k true -> from_call i log = data.
Proof. exact (complete_call ok s log i data k). Qed.
Print Assumptions C32_complete.
(** ... and data.len() - progress does not underflow. *)
Theorem C32_no_underflow (ok : state -> label -> Prop) s log i data k : history ok s log ->
  calls s i = Open data k -> (k <= length data)%nat.
Proof. exact (no_underflow ok s log i data k). Qed.
Print Assumptions C32_no_underflow.

(** The buffer stays below its capacity. *)
Theorem C32_bounded (ok : state -> label -> Prop) s log : history ok s log ->
  Z.of_nat (length (buf (wb s))) < capa.
Proof. exact (bounded ok s log). Qed.
Print Assumptions C32_bounded.

(** A flush that succeeds leaves nothing behind, and everything in the file; ... *)
Theorem C32_flushed ts w r w' : drain ts w = Some (r, w') ->
  r = ROk -> buf w' = [] /\ out w' = out w ++ buf w.
Proof. exact (flushed ts w r w'). Qed.
Print Assumptions C32_flushed.
(** ... so does a write on a stream that is sync or a terminal; ... *)
Theorem C32_through ts1 ts2 data w w' k : writes_through w = true ->
  write ts1 ts2 data 0 w = Some (ROk, w', k) ->
  buf w' = [] /\ out w' = out w ++ buf w ++ data.
Proof. exact (through ts1 ts2 data w w' k). Qed.
Print Assumptions C32_through.
(** ... and if the kernel keeps taking at least a byte, a flush succeeds. *)
Theorem C32_drains ts w : Forall willing ts -> (length (buf w) <= length ts)%nat ->
  exists w', drain ts w = Some (ROk, w').
Proof. exact (drains ts w). Qed.
Print Assumptions C32_drains.

(** write("a") and then write_nonblock("b") puts "ba" into the file. *)
Theorem C32_nonblock_refuted : exists s log, history any s log /\
  accepted log = [97; 98] /\ out (wb s) = [98; 97] /\ buf (wb s) = [].
Proof. exact overtaken. Qed.
Print Assumptions C32_nonblock_refuted.
(** A write that returned is lost if the object is collected before it is flushed. *)
Theorem C32_dropped_refuted : exists s log, history any s log /\
  calls s 0 = Ended [97] 1 true /\ accepted log = [97] /\ out (wb s) = [] /\ buf (wb s) = [].
Proof. exact dropped. Qed.
Print Assumptions C32_dropped_refuted.

(** A sync write of "abc": two bytes are taken, then EAGAIN; meanwhile another call writes
    "x"; the first one is retried, interrupted without a signal, and finishes. *)
Example C32_example :
  match steps (init true false)
    [Start 0 [97; 98; 99]; Try 0 [] [T false (Took 2) false; T false Eagain false];
     Start 1 [120]; Try 1 [] [T false (Took 1) false];
     Try 0 [] [T false Eintr false; T false (Took 5) false]] with
  | Some s => (out (wb s), buf (wb s), calls s 0%nat, calls s 1%nat)
  | None => ([], [], Unused, Unused)
  end = ([97; 98; 120; 99], [], Ended [97; 98; 99] 3 true, Ended [120] 1 true).
Proof. reflexivity. Qed.
(** Two buffered writes; the first flush gets one byte out before a signal. *)
Example C32_example_buffered :
  match steps (init false false)
    [Start 0 [97; 98]; Try 0 [] []; Start 1 [99]; Try 1 [] [];
     Flush [T false (Took 1) false; T true Fail false]] with
  | Some s => (out (wb s), buf (wb s))
  | None => ([], [])
  end = ([97], [98; 99]).
Proof. reflexivity. Qed.
