(** C93: strings that share a buffer. *)
From Coq Require Import ZArith List Bool Arith.
From Verif Require Import StrShareModel StrShareSpec StrShareProofs StrShareLeakProofs StrShareBadProofs.
Import ListNotations.

(** For all histories in which no frozen string is written, no freed memory is used and every
    name shows the bytes of a program in which each name has its own. *)
Theorem C93_unseen_partial : forall l, respects [] l ->
  exists m, run empty_mem l = Some m /\ seen m = map Some (srun [] l).
Proof. exact share_run. Qed.
Print Assumptions C93_unseen_partial.
(** A slice, a snapshot, a mutation of the parent, a collection of the parent. *)
Example C93_unseen_ex :
  let l := [ONew (repeat 97%Z 40) true; OSub 0 2 38; OSnap 1; OMut 0 (fun b => 98%Z :: b) InPlace; OMut 1 (fun b => b ++ [99%Z]) Moved;
            OGc [1; 2]; OSub 2 0 34; OGc [3]] in
  respects [] l /\
  match run empty_mem l with
  | Some m => seen m = [Some None; Some None; Some None; Some (Some (repeat 97%Z 34, false))]
              /\ objs m 0 = None /\ bufs m 0 = Some (repeat 97%Z 40)
  | None => False
  end.
Proof. split; [cbn; repeat split | vm_compute; repeat split]. Qed.

(** Nothing a program does changes a frozen string, or one of its slices, except these. *)
Theorem C93_frozen_partial : forall l1 l2 m1 n b, respects [] (l1 ++ l2) -> run empty_mem l1 = Some m1 ->
  nth n (seen m1) None = Some (Some (b, true)) ->
  exists m2, run m1 l2 = Some m2 /\ (nth n (seen m2) None = Some (Some (b, true)) \/ nth n (seen m2) None = Some None).
Proof. exact frozen_stays. Qed.
Print Assumptions C93_frozen_partial.
Example C93_frozen_ex : exists m1, run empty_mem [ONew (repeat 97%Z 33) false; OSnap 0] = Some m1
  /\ nth 1 (seen m1) None = Some (Some (repeat 97%Z 33, true)).
Proof. eexists. split; [vm_compute; reflexivity | vm_compute; reflexivity]. Qed.

(** In any history: a buffer that a collection keeps belongs to a live name or to its root. *)
Theorem C93_no_leak : forall l m keep a b, run empty_mem l = Some m -> bufs (gc m keep) a = Some b ->
  exists n i, In n keep /\ name m n = Some i /\
    exists o, objs m i = Some o /\ match o_c o with Heap a' => a' = a | View r _ _ _ => exists f, objs m r = Some (mkO (Heap a) f) | Inl _ => False end.
Proof. exact no_leak. Qed.
Print Assumptions C93_no_leak.
Example C93_no_leak_ex : match run empty_mem [ONew (repeat 97%Z 40) true; OSub 0 2 38; OMut 1 (fun b => b) Moved; OReplace 0 1] with
  | Some m => (bufs (gc m [0; 1]) 0, bufs (gc m [0; 1]) 3, bufs (gc m [0]) 2, bufs (gc m [0]) 3)
              = (None, Some (repeat 97%Z 36), None, Some (repeat 97%Z 36))
  | None => False end.
Proof. vm_compute. reflexivity. Qed.

(** A slice of more than 32 bytes of a string outside its object allocates no buffer. *)
Theorem C93_slice : forall m n i o s e m', name m n = Some i -> objs m i = Some o -> (forall x, o_c o <> Inl x) -> cap < e - s ->
  step m (OSub n s e) = Some m' -> nbuf m' = nbuf m /\ bufs m' = bufs m.
Proof. exact slice_shares. Qed.
Print Assumptions C93_slice.
Example C93_slice_ex : match run empty_mem [ONew (repeat 97%Z 40) true; OSub 0 2 38] with Some m => nbuf m = 1 | None => False end.
Proof. vm_compute. reflexivity. Qed.

(** [readpartial] into a frozen string: its slice reads freed memory. *)
Theorem C93_read_into_refuted : exists m, run empty_mem read_into = Some m
  /\ nth 1 (seen m) (Some None) = None /\ nth 0 (seen m) None = Some (Some ([120%Z], true))
  /\ nth 1 (srun [] read_into) None = Some (repeat 97%Z 39, false).
Proof. exact read_into_bad. Qed.
Print Assumptions C93_read_into_refuted.
(** A C function that only reads a frozen string. *)
Theorem C93_call_refuted : exists m, run empty_mem call_with = Some m
  /\ nth 1 (seen m) (Some None) = None /\ nth 1 (srun [] call_with) None = Some (repeat 97%Z 39, false).
Proof. exact call_with_bad. Qed.
Print Assumptions C93_call_refuted.
(** [append_as_bytes] of a string to itself reads the buffer it has left. *)
Theorem C93_append_self_refuted : exists m1 m2,
  run empty_mem [ONew b40 true] = Some m1 /\ append_self m1 0 true = None
  /\ run empty_mem [ONew (repeat 97%Z 20) false] = Some m2 /\ append_self m2 0 false = None.
Proof. exact append_self_bad. Qed.
Print Assumptions C93_append_self_refuted.
Theorem C93_append_self_short : forall m i b f grow, objs m i = Some (mkO (Inl b) f) -> length b + length b <= cap ->
  append_self m i grow = Some (b ++ b).
Proof. exact append_self_short. Qed.
Print Assumptions C93_append_self_short.
Example C93_append_self_short_ex : match run empty_mem [ONew [97%Z; 98%Z] false] with Some m => append_self m 0 true = Some [97%Z; 98%Z; 97%Z; 98%Z] | None => False end.
Proof. vm_compute. reflexivity. Qed.
