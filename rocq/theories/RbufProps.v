(** * C33, C55: reading, seeking and writing agree on one position *)

From Coq Require Import ZArith Bool List.
From Verif Require Import RbufModel RbufSpec RbufProofs RbufSigProofs.
Import ListNotations.
Local Open Scope Z_scope.

(** What has not been handed out yet is what the file holds from the position on. *)
Theorem C33_position_partial s : history no_unget s ->
  0 <= tell s /\ stream s = skipn (Z.to_nat (tell s)) (file s).
Proof. exact (stays_at_position s). Qed.
Print Assumptions C33_position_partial.
(** So a read - however the kernel cuts it up - returns the bytes of the file at the
    position, as many as it should, and moves the position by as much. *)
Theorem C33_reads_partial s o b s' : history no_unget s -> plain s o -> is_read o -> step s o = Some (Bytes b, s') ->
  let left := skipn (Z.to_nat (tell s)) (file s) in
  fits o left b /\ b = firstn (length b) left /\ tell s' = tell s + Z.of_nat (length b) /\ file s' = file s.
Proof. exact (reads_at s o b s'). Qed.
Print Assumptions C33_reads_partial.
(** The same with bytes pushed back, which come first. *)
Theorem C33_stream_partial s o b s' : history plain s -> plain s o -> is_read o -> step s o = Some (Bytes b, s') ->
  fits o (stream s) b /\ stream s = b ++ stream s' /\ tell s' = tell s + Z.of_nat (length b) /\ file s' = file s.
Proof. exact (reads_stream s o b s'). Qed.
Print Assumptions C33_stream_partial.
Theorem C33_unget s b : history plain s -> kind s <> KStdin ->
  stream (snd (unget b s)) = b ++ stream s /\ tell (snd (unget b s)) = tell s - Z.of_nat (length b).
Proof. exact (ungets s b). Qed.
Print Assumptions C33_unget.
(** A read that a signal interrupts, or that would block, takes nothing. *)
Theorem C33_interrupted_partial s o r s' : history plain s -> plain s o -> is_read o -> restores s o ->
  step s o = Some (r, s') -> r = Sig \/ r = Again ->
  stream s' = stream s /\ tell s' = tell s /\ file s' = file s.
Proof. exact (interrupted_keeps s o r s'). Qed.
Print Assumptions C33_interrupted_partial.
(** It is interrupted by the first signal it sees and by nothing else: an EINTR without one is
    retried. *)
Theorem C33_signals o s r s' evs' : waits o s = Some (r, s', evs') ->
  exists used, given o = used ++ evs' /\ stops (match r with Sig => true | _ => false end) used.
Proof. exact (interrupted_by_signal o s r s' evs'). Qed.
Print Assumptions C33_signals.
Example C33_signals_example :
  option_map (fun r => fst (fst r)) (waits (Read (Some 1%nat) true 9
    [P false; K Eintr false; K (Got 1) true]) (opened (KFile true) [97])) = Some (Bytes [97]) /\
  option_map (fun r => fst (fst r)) (waits (Read (Some 1%nat) true 9
    [P false; K Eintr false; K Eintr true]) (opened (KFile true) [97])) = Some Sig.
Proof. split; vm_compute; reflexivity. Qed.
(** After seek the position is where it should be and reading goes on there; a seek that
    fails changes nothing. *)
Theorem C33_seek_partial s w o ok s' : history plain s -> pushback s = [] -> seek w o s = (ok, s') ->
  let t := target w o s in
  file s' = file s /\
  (kind s = KFile true -> (ok = true <-> 0 <= t < 2 ^ 63)) /\ (kind s <> KFile true -> ok = false) /\
  (ok = true -> tell s' = t /\ stream s' = skipn (Z.to_nat t) (file s)) /\
  (ok = false -> tell s' = tell s /\ stream s' = stream s).
Proof. exact (seeks s w o ok s'). Qed.
Print Assumptions C33_seek_partial.
Theorem C33_pos s : history plain s -> kind s = KFile true ->
  fst (tell_op s) = Some (Z.max 0 (tell s)) /\
  stream (snd (tell_op s)) = stream s /\ tell (snd (tell_op s)) = tell s.
Proof. exact (pos_right s). Qed.
Print Assumptions C33_pos.
Theorem C33_eof_partial s fuel evs r b s' : history plain s -> kind s <> KStdin ->
  eof fuel evs s = Some (r, b, s') -> r <> Error ->
  stream s' = stream s /\ tell s' = tell s /\ file s' = file s /\
  (forall x, r = Bytes x -> (b = true <-> stream s = [])).
Proof. exact (eof_right s fuel evs r b s'). Qed.
Print Assumptions C33_eof_partial.
(** A seek keeps what an interrupted read put back: after rewind, `ab` comes twice. *)
Theorem C33_seek_stale_refuted : exists s b s', history any s /\ file s = [97; 98; 99; 10] /\
  step s (Seek Set_ 0) = Some (Bytes [], s') /\ b = [97; 98] ++ file s /\
  exists s'', step s' (Read None false 9 ask) = Some (Bytes b, s'').
Proof. exact seek_stale. Qed.
Print Assumptions C33_seek_stale_refuted.
(** A gets that is interrupted twice loses what the first attempt had put back. *)
Theorem C33_gets_interrupted_refuted : exists s s', history any s /\ step s (Line 9 [P true]) = Some (Sig, s') /\
  stream s = [97; 98; 99; 10] /\ stream s' = [98; 99; 10].
Proof. exact line_lost. Qed.
Print Assumptions C33_gets_interrupted_refuted.
(** On a pipe, read_nonblock overtakes the bytes in the buffer. *)
Theorem C33_nonblock_order_refuted : exists s s' s'', history any s /\ stream s = [98; 99; 100] /\
  step s (Nonblock 9 [K (Got 9) false]) = Some (Bytes [100], s') /\
  step s' (Read None false 9 (P false :: ask)) = Some (Bytes [98; 99], s'').
Proof. exact nonblock_order. Qed.
Print Assumptions C33_nonblock_order_refuted.
(** An interrupted read of stdin loses what it had got, ... *)
Theorem C33_stdin_refuted : exists s s', history any s /\
  step s (Read None false 9 [P false; K (Got 3) false; P true]) = Some (Sig, s') /\
  stream s = [97; 98; 99; 100] /\ stream s' = [100].
Proof. exact stdin_lost. Qed.
Print Assumptions C33_stdin_refuted.
(** ... and eof? raises there, and takes a byte. *)
Theorem C33_stdin_eof_refuted : exists s s', history any s /\
  eof 9 ask s = Some (Error, false, s') /\ stream s = [97; 98] /\ stream s' = [98].
Proof. exact stdin_eof. Qed.
Print Assumptions C33_stdin_eof_refuted.

(** A line, a read of two bytes in two pieces, eof? at the end, and back. *)
Example C33_example :
  option_map fst (run (opened (KFile true) [97; 10; 98; 99; 100])
    [Line 9 [P false; K (Got 4) false]; Read (Some 3%nat) true 9 [P false; K (Got 1) false];
     Eof 9 [P false; K (Got 1) false]; Seek Cur (-2); Getline [100] None 9 ask])
  = Some [Bytes [97; 10]; Bytes [98; 99; 100]; Bytes []; Bytes []; Bytes [99; 100]].
Proof. vm_compute. reflexivity. Qed.

(** A write with nothing read ahead goes to the position, and reading goes on behind it. *)
Theorem C55_write_partial s d k : history no_unget s -> kind s = KFile k -> plain s (Write d) -> d <> [] ->
  written (file s) (Z.to_nat (tell s)) d (file (write d s)) /\
  tell (write d s) = tell s + Z.of_nat (length d) /\
  stream (write d s) = skipn (Z.to_nat (tell s) + length d) (file (write d s)).
Proof. exact (writes s d k). Qed.
Print Assumptions C55_write_partial.
(** With bytes read ahead it goes behind them: after gets on `a\ncd`, X lands at the end. *)
Theorem C55_read_ahead_refuted : exists s, history any s /\ kind s = KFile true /\ pushback s = [] /\
  file s = [97; 10; 99; 100] /\ tell s = 2 /\ file (write [88] s) = [97; 10; 99; 100; 88].
Proof. exact write_astray. Qed.
Print Assumptions C55_read_ahead_refuted.

(** Seek, write, read on. *)
Example C55_example :
  option_map (fun r => (fst r, file (snd r), tell (snd r)))
    (run (opened (KFile true) [97; 98; 99; 100])
      [Line 9 ask; Seek Set_ 1; Write [88]; Write [89]; Read None false 9 ask])
  = Some ([Bytes [97; 98; 99; 100]; Bytes []; Bytes []; Bytes []; Bytes [100]], [97; 88; 89; 100], 4).
Proof. vm_compute. reflexivity. Qed.
