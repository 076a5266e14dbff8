(** C25, C53, C54: Queue, SizedQueue and ConditionVariable. *)

From Coq Require Import List Bool Arith.
From Verif Require Import MutexModel MutexSpec QueueModel QueueSpec QueueProofs.
Import ListNotations.

(** ** C25 *)

(** The items taken out (by pops and clears, in the order they were taken), followed by
    those still in the queue, are the items pushed, in the order they were pushed:
    nothing is lost, duplicated, invented or reordered.  With kills and raises at any
    switch point, spurious wake-ups, forks. *)
Theorem C25_conserved m ok s : qhistory m ok s -> pushed s = map fst (gone s) ++ items s.
Proof. exact (conserve m ok s). Qed.
Print Assumptions C25_conserved.
(** A push that goes on to signal has appended its item; it does not return normally
    without doing so. *)
Theorem C25_push_appends s l s' t : qstep s l = Some s' ->
  (pcs s' t = Sig -> pcs s t <> Sig -> exists x nb, pcs s t = Body (Push x nb) /\ items s' = items s ++ [x] /\ closed s = false) /\
  (forall x nb, pcs s t = Body (Push x nb) -> pcs s' t <> Fin ROk).
Proof. exact (push_effect s l s' t). Qed.
Print Assumptions C25_push_appends.
(** pop returns nil only for an empty queue that is closed or after its time is over. *)
Theorem C25_nil m ok s l s' t : qhistory m ok s -> qstep s l = Some s' ->
  pcs s' t = Fin RNil -> pcs s t <> Fin RNil ->
  (pcs s t = Body (Pop false) /\ items s = [] /\ (closed s = true \/ l = QRun t true)) \/
  (exists x, pcs s t = Body (Push x false) /\ full s = true /\ l = QRun t true).
Proof. exact (nil_only m ok s l s' t). Qed.
Print Assumptions C25_nil.
(** The items taken by the pops of a thread are those its pops returned, in order, and
    the one in hand - if no interrupt arrives between the taking and the return. *)
Theorem C25_delivered_partial m s t : qhistory m no_loss s -> taken s t = returned s t ++ in_hand s t.
Proof. exact (delivered m s t). Qed.
Print Assumptions C25_delivered_partial.
(** Otherwise an item is lost: a kill arrives in the unlock of synchronize, ... *)
Theorem C25_interrupted_pop_refuted :
  exists s, qhistory None any_step s /\ taken s 1 = [7] /\ returned s 1 = [] /\ in_hand s 1 = [] /\ items s = [].
Proof. exact interrupted_pop_bad. Qed.
Print Assumptions C25_interrupted_pop_refuted.
(** ... or, for a SizedQueue, in the signal to the producers. *)
Theorem C25_interrupted_sized_pop_refuted :
  exists s, qhistory (Some 5) any_step s /\ taken s 1 = [7] /\ returned s 1 = [] /\ in_hand s 1 = [] /\ items s = [].
Proof. exact interrupted_sized_pop_bad. Qed.
Print Assumptions C25_interrupted_sized_pop_refuted.

(** A consumer waits, two items are pushed, it takes the first. *)
Example C25_example :
  match qsteps (qinit None) (wait_in_pop 1 ++ [Call 2 (Push 5 false)] ++ go 2 5 ++ [Call 2 (Push 6 false)] ++ go 2 5 ++ go 1 7) with
  | Some s => (items s, gone s, got s, pcs s 1, cvp s) = ([6], [(5, Some 1)], [(1, 5)], QOut, [])
  | None => False
  end.
Proof. vm_compute; reflexivity. Qed.

(** ** C53 *)

(** No wake-up is lost: while a consumer is parked and there is an item, or the queue is
    closed, some thread inside the queue's methods can run; ... *)
Theorem C53_consumer_partial m s t : qhistory m calm s ->
  blocked s CPop t -> items s <> [] \/ closed s = true -> goes_on s.
Proof. exact (consumer_served m s t). Qed.
Print Assumptions C53_consumer_partial.
(** ... and while a producer is parked and there is room. *)
Theorem C53_producer_partial m s t : qhistory m calm s ->
  blocked s CPush t -> has_room s \/ closed s = true -> goes_on s.
Proof. exact (producer_served m s t). Qed.
Print Assumptions C53_producer_partial.
(** Only threads inside wait are registered with a condition variable, and with their own:
    whoever leaves, also through an interrupt, is taken off the list. *)
Theorem C53_registered m ok s c u : qhistory m ok s -> In u (cv s c) ->
  exists o, cv_of o = c /\ (pcs s u = Reg o \/ pcs s u = Parked o \/ pcs s u = Raising o).
Proof. exact (registered m ok s c u). Qed.
Print Assumptions C53_registered.
(** False with interrupts: the consumer that was signalled is killed before it runs and
    the signal is not passed on; ... *)
Theorem C53_signalled_killed_refuted :
  exists s, qhistory None in_wait s /\ blocked s CPop 2 /\ items s <> [] /\ ~ goes_on s.
Proof. exact signalled_then_killed_bad. Qed.
Print Assumptions C53_signalled_killed_refuted.
(** ... the producer is killed between adding the item and signalling. *)
Theorem C53_producer_killed_refuted :
  exists s, qhistory None in_push s /\ blocked s CPop 2 /\ items s <> [] /\ ~ goes_on s.
Proof. exact killed_before_signal_bad. Qed.
Print Assumptions C53_producer_killed_refuted.

(** A producer waits for room; a pop makes room and wakes it. *)
Example C53_example :
  match qsteps (qinit (Some 1)) ([Call 1 (Push 5 false)] ++ go 1 5 ++ [Call 1 (Push 6 false)] ++ go 1 6) with
  | Some s => (parked (thr (mx s) 1), pcs s 1, cvs s, items s) = (true, Parked (Push 6 false), [1], [5]) /\
      match qsteps s ([Call 2 (Pop false)] ++ go 2 4) with
      | Some s1 => (parked (thr (mx s1) 1), cvs s1, items s1) = (false, [], []) /\
          match qsteps s1 (go 2 2 ++ go 1 7) with
          | Some s2 => (items s2, got s2, pcs s2 1) = ([6], [(2, 5)], QOut)
          | None => False
          end
      | None => False
      end
  | None => False
  end.
Proof. vm_compute; auto. Qed.

(** ** C54 *)

(** A push into a SizedQueue leaves at most [max] items in it. *)
Theorem C54_bounded s l s' m : qstep s l = Some s' -> cap s = Some m -> length (items s) < length (items s') ->
  length (items s') <= m.
Proof. exact (room_first s l s' m). Qed.
Print Assumptions C54_bounded.

(** Without waiting the second push fails; after max= it goes in. *)
Example C54_example :
  match qsteps (qinit (Some 1)) ([Call 1 (Push 5 false)] ++ go 1 5 ++ [Call 1 (Push 6 true)] ++ go 1 2) with
  | Some s => (items s, pcs s 1) = ([5], Fin RErr) /\
      match qsteps s (go 1 2 ++ [Call 1 (Resize 2)] ++ go 1 5 ++ [Call 1 (Push 6 true)] ++ go 1 5) with
      | Some s1 => (items s1, cap s1, pcs s1 1) = ([5; 6], Some 2, QOut)
      | None => False
      end
  | None => False
  end.
Proof. vm_compute; auto. Qed.
