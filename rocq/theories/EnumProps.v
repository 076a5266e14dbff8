From Coq Require Import List Bool ZArith.
From Verif Require Import EnumModel EnumSpec EnumProofs.
Import ListNotations.
Open Scope Z_scope.

(** C110. Whatever sequence of next, next_values, peek, peek_values, rewind and feed is made, an enumerator answers as Ruby's
    cursor does. Missing: producers that return without having yielded, Fiber.yield inside a producer, and whether an array
    handed out is the enumerator's own. *)
Theorem C110_cursor_partial p l : proper p -> busy p -> map plain (run p init l) = ruby_run p start l.
Proof. exact (run_ok p l). Qed.
Example C110_example :
  run talk init [Next; Feed 5; Feed 6; Peek; Feed 8; Next; PeekValues; Next; Rewind; Peek; NextValues; Next; Next; Next]
  = [RVal 1; RVal 0; RTypeErr; RArr true [2; 5]; RVal 0; RArr false [2; 5]; RStop 8; RStop 8; RSelf; RVal 1; RArr false [1]; RArr false [2; 0]; RErr 9; RVal 1]
  /\ proper talk /\ busy talk.
Proof. split; [reflexivity|]. split; [|exact I]. intros [|a [|b [|c h]]]; cbn; try exact I. destruct (b =? 0); exact I. Qed.
Print Assumptions C110_cursor_partial.

(** Looking ahead is not seen: peek shows what next gives, and next after it leaves everything as next alone would. *)
Theorem C110_peek p l : dead (after p init l) = false ->
  match step p (after p init l) Peek with
  | (s1, r1) => match step p s1 Next, step p (after p init l) Next with
                | (s2, r2), (s3, r3) => plain r1 = r3 /\ (match r1 with RArr _ _ | RVal _ => s2 = s3 /\ r2 = r3 | _ => True end)
                end
  end.
Proof. exact (peek_state p (after p init l)). Qed.
Example C110_peek_example : after talk init [Next; Peek] = mkE (Some (Suspended [0])) (Some [2; 0]) None None false.
Proof. reflexivity. Qed.
Print Assumptions C110_peek.

(** After rewind the enumerator is as new, whatever has happened before. *)
Theorem C110_rewind p l m : dead (after p init l) = false -> run p init (l ++ Rewind :: m) = run p init l ++ RSelf :: run p init m.
Proof. exact (rewind_ok p l m). Qed.
Example C110_rewind_example : run talk init [Next; Feed 3; Rewind; Next; Next] = [RVal 1; RVal 0; RSelf; RVal 1; RArr false [2; 0]].
Proof. reflexivity. Qed.
Print Assumptions C110_rewind.

Theorem C110_fed_at_end_refuted : exists p l, proper p /\ map plain (run p init l) <> ruby_run p start l.
Proof.
  exists none_yet, [Feed 1; Next; Feed 2]. split; [intros h; exact I|]. rewrite (proj1 stop_bad), (proj2 stop_bad). discriminate.
Qed.
Print Assumptions C110_fed_at_end_refuted.
Theorem C110_own_array_refuted : exists p l, proper p /\ busy p /\ run p init l <> ruby_run p start l.
Proof.
  exists pair, [Peek; Next]. split; [intros [|a h]; exact I|]. split; [exact I|]. rewrite (proj1 shared_bad), (proj2 shared_bad). discriminate.
Qed.
Print Assumptions C110_own_array_refuted.
Theorem C110_raw_refuted : exists p v, ruby_run p start [Next] = [RVal v] /\ run p init [Next] = [RPanic].
Proof. exists raw, 5. split; [exact (proj2 raw_bad)|exact (proj1 raw_bad)]. Qed.
Print Assumptions C110_raw_refuted.
