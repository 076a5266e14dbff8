From Coq Require Import List Bool ZArith.
From Verif Require Import TimeModel TimeSpec TimeCalProofs TimeProofs TimeMarshalProofs TimeTextProofs TimeScanProofs TimeBadProofs.
Import ListNotations.
Open Scope Z_scope.

(** * C111. The fields of a Time follow the calendar. *)
(** The clock starts on 1970-01-01 and every second shows the next reading, forwards and backwards without bound. *)
Theorem C111_calendar : fields_of 0 = midnight 1970 1 1 /\ forall x, fields_of (x + 1) = tick (fields_of x).
Proof. exact (conj epoch one_tick). Qed.
Example C111_calendar_example :
  fields_of 951782399 = (2000, 2, 28, (23, 59, 59)) /\ fields_of 951782400 = midnight 2000 2 29 /\ fields_of (-2203891201) = (1900, 2, 28, (23, 59, 59))
  /\ fields_of (-2203891200) = midnight 1900 3 1.
Proof. vm_compute. repeat split. Qed.
Print Assumptions C111_calendar.

(** Time.gm with fields in their ranges gives the reading that many seconds after the first of the month, also for the 31st of
    a short month and for second 60; the fraction of the seconds is cut to nanoseconds.
    Missing: hour 24, Float seconds, strings as arguments, the first and the last year chrono has. *)
Theorem C111_fields_partial y mon day h mi n d : MIN_YEAR < y < MAX_YEAR -> in_month mon day h mi -> 0 < d -> 0 <= n / d <= 60 ->
  exists w, from_args y mon day h mi (SRat n d) None = Ok w /\
    fields_of (fst w) = after (seconds day h mi (n / d)) (midnight y mon 1) /\ whole_ns n d (n / d * 1000000000 + snd w) /\ 0 <= snd w < 1000000000.
Proof. exact (fields_ok y mon day h mi n d). Qed.
Example C111_fields_example :
  match from_args 2001 2 30 23 59 (SRat 121 2) None with Ok w => fields_of (fst w) = (2001, 3, 3, (0, 0, 0)) /\ snd w = 500000000 | _ => False end.
Proof. vm_compute. repeat split. Qed.
Print Assumptions C111_fields_partial.

Theorem C111_usec_partial y mon day h mi s un ud : MIN_YEAR < y < MAX_YEAR -> in_month mon day h mi -> 0 <= s <= 60 -> 0 < ud -> 0 <= un < 1000000 * ud ->
  exists w, from_args y mon day h mi (SRat s 1) (Some (un, ud)) = Ok w /\
    fields_of (fst w) = after (seconds day h mi s) (midnight y mon 1) /\ whole_ns un (1000000 * ud) (snd w).
Proof. exact (usec_fields y mon day h mi s un ud). Qed.
Example C111_usec_example : from_args 1970 1 1 0 0 (SRat 1 1) (Some (1001, 2)) = Ok (1, 500500).
Proof. reflexivity. Qed.
Print Assumptions C111_usec_partial.

(** Whole seconds that are accepted are in range, and so are the other fields. *)
Theorem C111_refused y mon day h mi s us w : from_args y mon day h mi (SRat s 1) us = Ok w -> i64_fits s = true -> in_month mon day h mi /\ 0 <= s <= 60.
Proof. exact (args_refused y mon day h mi s us w). Qed.
Example C111_refused_example :
  from_args 2000 13 1 0 0 (SRat 0 1) None = Raise /\ from_args 2000 1 32 0 0 (SRat 0 1) None = Raise /\ from_args 2000 1 1 0 60 (SRat 0 1) None = Raise
  /\ from_args 2000 1 1 0 0 (SRat (-1) 1) None = Raise /\ from_args 2000 0 1 0 0 (SRat 0 1) None = Raise.
Proof. repeat split; reflexivity. Qed.
Print Assumptions C111_refused.

Theorem C111_no_panic y mon day h mi s us : from_args y mon day h mi s us <> Panic.
Proof. exact (args_no_panic y mon day h mi s us). Qed.
Example C111_no_panic_example : from_args (2 ^ 40) (2 ^ 40) (-1) 99 99 (SFloat (2 ^ 80) 3) (Some (- (2 ^ 90), 7)) = Raise.
Proof. reflexivity. Qed.
Print Assumptions C111_no_panic.

(** Time.local: the time shows the reading asked for, in an offset the zone has at that instant; and every reading that the
    zone shows exactly once is accepted. *)
Theorem C111_local z cands w n t : time_local z cands (Ok (w, n)) = Ok t -> utc t = false /\ ts t + off t = w /\ off t = z (ts t) /\ ns t = n.
Proof. exact (local_ok z cands w n t). Qed.
Theorem C111_local_once z cands w n : (forall s, In (z s) cands) -> NoDup cands -> (exists s, s + z s = w /\ forall s', s' + z s' = w -> s' = s) ->
  exists t, time_local z cands (Ok (w, n)) = Ok t.
Proof. exact (local_total z cands w n). Qed.
Example C111_local_example :
  time_local (fun s => if s <? 1000000 then 0 else 3600) [0; 3600] (Ok (1003600, 5)) = Ok (mkT false 1000000 5 3600)
  /\ time_local (fun s => if s <? 1000000 then 0 else 3600) [0; 3600] (Ok (1000000, 5)) = Raise.
Proof. split; reflexivity. Qed.
Print Assumptions C111_local.
Print Assumptions C111_local_once.

(** Ruby takes the first of the two instants when the clock is set back; here it raises. *)
Theorem C111_local_refuted :
  ~ (forall z cands w n, (forall s, In (z s) cands) -> NoDup cands -> shown z w -> exists t, time_local z cands (Ok (w, n)) = Ok t).
Proof. exact local_twice. Qed.
Print Assumptions C111_local_refuted.

(** Time.gm(2000, 1, 1, 24, 0, 0) is the next midnight in Ruby. *)
Theorem C111_hour24_refuted :
  ~ (forall y mon day, MIN_YEAR < y < MAX_YEAR -> 1 <= mon <= 12 -> 1 <= day <= 31 -> exists w, from_args y mon day 24 0 (SRat 0 1) None = Ok w).
Proof. exact hour24. Qed.
Print Assumptions C111_hour24_refuted.

(** -0.5 seconds are out of range in Ruby, and so are Rational(2**70 + 1, 2). *)
Theorem C111_float_refuted : ~ (forall y mon day h mi n d w, 0 < d -> from_args y mon day h mi (SFloat n d) None = Ok w -> 0 <= n).
Proof. exact negative_float. Qed.
Print Assumptions C111_float_refuted.

Theorem C111_rational_refuted : ~ (forall y mon day h mi n d w, 0 < d -> from_args y mon day h mi (SRat n d) None = Ok w -> n / d <= 60).
Proof. exact huge_rational. Qed.
Print Assumptions C111_rational_refuted.

(** Ruby's years have no bound. *)
Theorem C111_year_refuted : ~ (forall y mon day h mi, in_month mon day h mi -> exists w, from_args y mon day h mi (SRat 0 1) None = Ok w).
Proof. exact far_year. Qed.
Print Assumptions C111_year_refuted.

(** * C112. Arithmetic moves the instant exactly, comparison orders instants, rounding takes the neighbour asked for. *)
(** Missing: more than 292 years at once, results outside chrono's years, and parts of nanoseconds, which are cut. *)
Theorem C112_add_partial t n d v : 0 < d -> whole_ns n d v -> i64_fits v = true -> MIN_SEC <= (instant t + v) / 1000000000 <= MAX_SEC ->
  exists u, add t n d = Ok u /\ same_place t u /\ instant u = instant t + v /\ good u.
Proof. exact (add_ok t n d v). Qed.
Theorem C112_sub_partial t n d v : 0 < d -> whole_ns n d v -> i64_fits v = true -> MIN_SEC <= (instant t - v) / 1000000000 <= MAX_SEC ->
  exists u, sub_num t n d = Ok u /\ same_place t u /\ instant u = instant t - v /\ good u.
Proof. exact (sub_ok t n d v). Qed.
Theorem C112_diff_partial t u : i64_fits (instant t - instant u) = true -> sub_time t u = Ok (instant t - instant u).
Proof. exact (diff_ok t u). Qed.
Example C112_add_example :
  add (mkT false 10 900000000 3600) 3 10 = Ok (mkT false 11 200000000 3600) /\ sub_num (mkT true 0 0 0) 1 4 = Ok (mkT true (-1) 750000000 0)
  /\ sub_time (mkT true 5 1 0) (mkT false 6 0 60) = Ok (-999999999).
Proof. repeat split; reflexivity. Qed.
Print Assumptions C112_add_partial.
Print Assumptions C112_sub_partial.
Print Assumptions C112_diff_partial.

Theorem C112_order t u : good t -> good u -> cmp t u = Z.sgn (instant t - instant u).
Proof. exact (cmp_ok t u). Qed.
Theorem C112_hash t u : good t -> good u -> (cmp t u = 0 <-> hash_of t = hash_of u).
Proof. exact (hash_ok t u). Qed.
Example C112_order_example : cmp (mkT true 5 9 0) (mkT false 5 9 32400) = 0 /\ cmp (mkT true (-1) 9 0) (mkT true 0 0 0) = -1 /\ cmp (mkT true 0 1 0) (mkT true 0 0 0) = 1.
Proof. repeat split; reflexivity. Qed.
Print Assumptions C112_order.
Print Assumptions C112_hash.

(** Time.at with seconds alone; the second argument is not covered. *)
Theorem C112_at_partial n d o v : 0 < d -> whole_ns n d v -> MIN_SEC <= v / 1000000000 <= MAX_SEC -> i64_fits (v / 1000000000) = true ->
  exists u, time_at n d None 1000 o = Ok u /\ instant u = v /\ good u /\ off u = o.
Proof. exact (at_ok n d o v). Qed.
Example C112_at_example : time_at (-1) 3 None 1000 0 = Ok (mkT false (-1) 666666666 0).
Proof. vm_compute. reflexivity. Qed.
Print Assumptions C112_at_partial.

Theorem C112_round_partial t mode p : good t -> ts t < MAX_SEC -> 0 <= p <= 9 -> mode = -1 \/ mode = 0 \/ mode = 1 ->
  exists u k, apply_subsec t mode p = Ok u /\ same_place t u /\ good u /\ instant u = k * 10 ^ (9 - p) /\
    match mode with
    | Zneg _ => instant u <= instant t < instant u + 10 ^ (9 - p)
    | Zpos _ => instant u - 10 ^ (9 - p) < instant t <= instant u
    | Z0 => 2 * instant u - 10 ^ (9 - p) <= 2 * instant t < 2 * instant u + 10 ^ (9 - p)
    end.
Proof. exact (round_ok t mode p). Qed.
Example C112_round_example :
  apply_subsec (mkT true (-5) 999950000 0) 0 4 = Ok (mkT true (-4) 0 0) /\ apply_subsec (mkT true 7 123456789 0) 1 3 = Ok (mkT true 7 124000000 0)
  /\ apply_subsec (mkT true 7 123456789 0) (-1) 3 = Ok (mkT true 7 123000000 0).
Proof. vm_compute. repeat split. Qed.
Print Assumptions C112_round_partial.

(** The difference of two times 292 years apart unwraps None. *)
Theorem C112_diff_refuted : ~ (forall t u, good t -> good u -> sub_time t u = Ok (instant t - instant u)).
Proof. exact diff_panics. Qed.
Print Assumptions C112_diff_refuted.

(** Time.gm(1970) + 10**10 raises, though the result is a time. *)
Theorem C112_add_refuted :
  ~ (forall t n d v, good t -> 0 < d -> whole_ns n d v -> MIN_SEC <= (instant t + v) / 1000000000 <= MAX_SEC -> exists u, add t n d = Ok u).
Proof. exact add_far. Qed.
Print Assumptions C112_add_refuted.

(** A number is cut towards minus infinity before it is subtracted, so t - r is not t + -r. *)
Theorem C112_sub_refuted : ~ (forall t n d, good t -> 0 < d -> sub_num t n d = add t (- n) d).
Proof. exact sub_is_not_add. Qed.
Print Assumptions C112_sub_refuted.

(** Half a nanosecond added twice is nothing. *)
Theorem C112_exact_refuted : ~ (forall t a b d u v, good t -> 0 < d -> add t a d = Ok u -> add u b d = Ok v -> add t (a + b) d = Ok v).
Proof. exact add_loses. Qed.
Print Assumptions C112_exact_refuted.

(** One second after the last one chrono has, the process dies. *)
Theorem C112_panic_refuted : ~ (forall t n d, good t -> 0 < d -> add t n d <> Panic).
Proof. exact add_panics. Qed.
Print Assumptions C112_panic_refuted.

(** * C113. Marshal gives back the same time. *)
(** Missing: years before 1900 and after 67435, zone names, and wall clocks that the local zone skips. *)
Theorem C113_round_trip_partial z cands t : good t -> 1900 <= year_of t <= 67435 -> -86400 < off t < 86400 -> (utc t = true -> off t = 0) ->
  (utc t = false -> from_local z cands (ts t + off t) <> Nowhere) -> marshal_load z cands (marshal_dump t) = Ok t.
Proof. exact (marshal_ok z cands t). Qed.
Example C113_example :
  marshal_dump (mkT false 946684800 123456789 32400) = mkI [41; 0; 25; 128; 64; 226; 1; 0] (Some 789) (Some 32400)
  /\ marshal_load (fun _ => 0) [0] (mkI [41; 0; 25; 128; 64; 226; 1; 0] (Some 789) (Some 32400)) = Ok (mkT false 946684800 123456789 32400).
Proof. vm_compute. repeat split. Qed.
Print Assumptions C113_round_trip_partial.

(** At offset zero the eight bytes are the ones CRuby writes. *)
Theorem C113_payload_partial t : good t -> 1900 <= year_of t <= 67435 -> off t = 0 -> ruby_payload t (payload (marshal_dump t)).
Proof. exact (payload_ok t). Qed.
Example C113_payload_example : payload (marshal_dump (mkT true 0 1000 0)) = [32; 128; 17; 192; 1; 0; 0; 0].
Proof. vm_compute. reflexivity. Qed.
Print Assumptions C113_payload_partial.

(** Elsewhere they hold the wall clock, where CRuby's hold UTC. *)
Theorem C113_payload_refuted : ~ (forall t, good t -> 1900 <= year_of t <= 67435 -> -86400 < off t < 86400 -> ruby_payload t (payload (marshal_dump t))).
Proof. exact payload_local. Qed.
Print Assumptions C113_payload_refuted.

Theorem C113_year_refuted : ~ (forall z cands t, good t -> utc t = true -> off t = 0 -> marshal_load z cands (marshal_dump t) = Ok t).
Proof. exact year_1899. Qed.
Example C113_year_example :
  exists t, marshal_load (fun _ => 0) [0] (marshal_dump (mkT true (-2240524800) 0 0)) = Ok t /\ year_of (mkT true (-2240524800) 0 0) = 1899 /\ year_of t = 67435.
Proof. exact year_1899_reads. Qed.
Print Assumptions C113_year_refuted.

(** A time of another zone, whose wall clock the local zone skips, cannot be loaded. *)
Theorem C113_gap_refuted :
  ~ (forall z cands t, good t -> 1900 <= year_of t <= 67435 -> -86400 < off t < 86400 -> utc t = false -> (forall s, In (z s) cands) ->
     marshal_load z cands (marshal_dump t) = Ok t).
Proof. exact gap_load. Qed.
Print Assumptions C113_gap_refuted.

(** The old format is taken with more than a second's worth of microseconds. *)
Theorem C113_legacy_refuted : ~ (forall z cands l t, load z cands l = Ok t -> ns t < 1000000000).
Proof. exact legacy. Qed.
Print Assumptions C113_legacy_refuted.

(** * C114. Texts of offsets, sub-seconds and times mean what they say. *)
Theorem C114_offset neg h m s f : 0 <= h <= 23 -> 0 <= m <= 59 -> 0 <= s <= 59 -> parse_offset (offset_text neg h m s f) = Ok (offset_value neg h m s f).
Proof. exact (offset_ok neg h m s f). Qed.
Theorem C114_letters c : parse_offset [c] = match letter_hours c with Some h => Ok (h * 3600) | None => Raise end.
Proof. exact (letters_ok c). Qed.
(** Nothing else is read, but for where the colons are. *)
Theorem C114_only_partial sg rest o : rest <> [] -> parse_offset (sg :: rest) = Ok o -> (sg :: rest = [85; 84; 67] /\ o = 0) \/
  exists neg h m s f, 0 <= h <= 23 /\ 0 <= m <= 59 /\ 0 <= s <= 59 /\ no_colons (sg :: rest) = no_colons (offset_text neg h m s f) /\ o = offset_value neg h m s f.
Proof. exact (offset_only sg rest o). Qed.
Example C114_offset_example :
  parse_offset [45; 48; 51; 58; 51; 48] = Ok (-12600) /\ parse_offset [43; 50; 51; 53; 57; 53; 57] = Ok 86399 /\ parse_offset [43; 50; 52; 48; 48] = Raise
  /\ parse_offset [74] = Raise /\ parse_offset [89] = Ok (-43200) /\ parse_offset [77] = Ok 43200 /\ parse_offset [85; 84; 67] = Ok 0.
Proof. repeat split; reflexivity. Qed.
Print Assumptions C114_offset.
Print Assumptions C114_letters.
Print Assumptions C114_only_partial.

Theorem C114_colons_refuted :
  ~ (forall s o, parse_offset s = Ok o -> s = [85; 84; 67] \/ length s = 1%nat \/ exists neg h m x f, s = offset_text neg h m x f).
Proof. exact colons. Qed.
Print Assumptions C114_colons_refuted.

(** strftime's %z, %:z and %::z, and reading them again *)
Theorem C114_format o c minus space : -86400 < o < 86400 ->
  format_offset o c minus space 0 =
  offset_text ((minus && (o =? 0)) || (o <? 0)) (Z.abs o / 3600) (Z.abs o / 60 mod 60) (Z.abs o mod 60) (if c =? 0 then HHMM else if c =? 1 then HHcMM else HHcMMcSS).
Proof. exact (format_eq o c minus space). Qed.
Theorem C114_format_read o minus space : -86400 < o < 86400 ->
  parse_offset (format_offset o 2 minus space 0) = Ok o /\
  parse_offset (format_offset o 0 minus space 0) = Ok (Z.quot o 60 * 60) /\ parse_offset (format_offset o 1 minus space 0) = Ok (Z.quot o 60 * 60).
Proof. exact (format_parse o minus space). Qed.
Theorem C114_format_width o c minus space w : -86400 < o < 86400 -> 0 <= w ->
  Z.of_nat (length (format_offset o c minus space w)) = Z.max w (Z.of_nat (length (format_offset o c minus space 0))).
Proof. exact (format_len o c minus space w). Qed.
Example C114_format_example :
  format_offset (-12645) 2 false false 0 = [45; 48; 51; 58; 51; 48; 58; 52; 53] /\ format_offset 0 1 true true 10 = [32; 32; 32; 32; 45; 48; 48; 58; 48; 48]
  /\ format_offset 3600 0 false false 7 = [43; 48; 48; 48; 49; 48; 48].
Proof. repeat split; reflexivity. Qed.
Print Assumptions C114_format.
Print Assumptions C114_format_read.
Print Assumptions C114_format_width.

(** %N with a width shows the first decimals. *)
Theorem C114_subsec n w : 0 <= n < 1000000000 -> (1 <= w)%nat -> format_subsec n (Z.of_nat w) = decimals w n.
Proof. exact (subsec_ok n w). Qed.
Example C114_subsec_example : format_subsec 123456789 4 = [49; 50; 51; 52] /\ format_subsec 5 12 = [48; 48; 48; 48; 48; 48; 48; 48; 53; 48; 48; 48].
Proof. split; reflexivity. Qed.
Print Assumptions C114_subsec.

(** %L does not. *)
Theorem C114_milli_refuted : ~ (forall n w, 0 <= n < 1000000000 -> (1 <= w)%nat -> format_milli n (Z.of_nat w) = decimals w n).
Proof. exact milli_width. Qed.
Print Assumptions C114_milli_refuted.

(** Time.new reads what xmlschema(9) writes as the same instant in the same offset.
    Missing: years below zero, offsets with seconds, and that a Z makes the time UTC. *)
Theorem C114_iso_partial z cands t given : good t -> 0 <= year_of t <= MAX_YEAR -> -86400 < off t < 86400 -> off t mod 60 = 0 -> (utc t = true -> off t = 0) ->
  time_text z cands (iso8601 t 9) given None = Ok (mkT false (ts t) (ns t) (off t)).
Proof. exact (text_ok z cands t given). Qed.
Example C114_iso_example :
  iso8601 (mkT false 946684800 123456789 (-12600)) 9
    = [49; 57; 57; 57; 45; 49; 50; 45; 51; 49; 84; 50; 48; 58; 51; 48; 58; 48; 48; 46; 49; 50; 51; 52; 53; 54; 55; 56; 57; 45; 48; 51; 58; 51; 48]
  /\ time_text (fun _ => 0) [0] (iso8601 (mkT false 946684800 123456789 (-12600)) 9) None None = Ok (mkT false 946684800 123456789 (-12600))
  /\ time_text (fun _ => 0) [0] [49; 57; 55; 48; 45; 48; 49; 45; 48; 49; 32; 48; 57; 58; 48; 48; 58; 48; 48; 46; 53; 32; 43; 48; 57; 58; 48; 48] None None
     = Ok (mkT false 0 500000000 32400).
Proof. vm_compute. repeat split. Qed.
Print Assumptions C114_iso_partial.

Theorem C114_utc_refuted :
  ~ (forall z cands t, good t -> 0 <= year_of t <= MAX_YEAR -> utc t = true -> off t = 0 -> time_text z cands (iso8601 t 9) None None = Ok t).
Proof. exact iso_utc. Qed.
Print Assumptions C114_utc_refuted.

(** The year is cut to 32 bits: 4294969296 is read as 2000. *)
Theorem C114_year_refuted :
  ~ (forall z cands t y, (forall s, z s = 0) -> cands = [0] ->
     time_text z cands (dec y ++ [45; 48; 49; 45; 48; 49; 32; 48; 48; 58; 48; 48; 58; 48; 48]) None None = Ok t -> 1000 <= y < 10 ^ 18 -> year_of t = y).
Proof. exact year_wraps. Qed.
Print Assumptions C114_year_refuted.

(** Time.gm takes second 60; a text with it is refused, where Ruby takes both. *)
Theorem C114_second_refuted :
  ~ (forall z cands h mi s, 0 <= h <= 23 -> 0 <= mi <= 59 -> 0 <= s <= 60 ->
     exists t, time_text z cands ([50; 48; 48; 48; 45; 48; 49; 45; 48; 49; 32] ++ ruby_two h ++ 58 :: ruby_two mi ++ 58 :: ruby_two s ++ [90]) None None = Ok t).
Proof. exact text_60. Qed.
Print Assumptions C114_second_refuted.
