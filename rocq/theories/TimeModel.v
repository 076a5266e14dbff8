(** Time: the calendar fields, arithmetic, rounding, Marshal and the texts (builtins/time.rs, builtins/marshal.rs).
    chrono's dates are taken by their contract: a date is the number of its day since 1970-01-01 in the Gregorian calendar. *)
From Coq Require Import List Bool ZArith.
Import ListNotations.
Open Scope Z_scope.

(** [Raise]: a Ruby exception. [Panic]: the process dies. *)
Inductive res (A : Type) := Ok (a : A) | Raise | Panic.
Arguments Ok {A} _. Arguments Raise {A}. Arguments Panic {A}.
Definition G : Z := 1000000000.
Definition bind {A B} (r : res A) (f : A -> res B) : res B := match r with Ok a => f a | Raise => Raise | Panic => Panic end.
Definition or_raise {A} (o : option A) : res A := match o with Some a => Ok a | None => Raise end.
Definition i64_fits (z : Z) : bool := (-(2 ^ 63) <=? z) && (z <? 2 ^ 63).

(** * chrono *)
(** The number of a day, by the usual formula on years that start in March, and back. *)
Definition day_number (y m d : Z) : Z :=
  let y' := if m <=? 2 then y - 1 else y in
  let doy := (153 * (if 2 <? m then m - 3 else m + 9) + 2) / 5 + d - 1 in
  y' / 400 * 146097 + (y' mod 400 * 365 + y' mod 400 / 4 - y' mod 400 / 100 + doy) - 719468.
Definition civil (n : Z) : Z * Z * Z :=
  let z := n + 719468 in
  let doe := z mod 146097 in
  let yoe := (doe - doe / 1460 + doe / 36524 - doe / 146096) / 365 in
  let doy := doe - (365 * yoe + yoe / 4 - yoe / 100) in
  let mp := (5 * doy + 2) / 153 in
  let m := if mp <? 10 then mp + 3 else mp - 9 in
  (yoe + z / 146097 * 400 + (if m <=? 2 then 1 else 0), m, doy - (153 * mp + 2) / 5 + 1).
Definition leap (y : Z) : bool := ((y mod 4 =? 0) && negb (y mod 100 =? 0)) || (y mod 400 =? 0).
Definition month_len (y m : Z) : Z :=
  if m =? 2 then if leap y then 29 else 28 else if (m =? 4) || (m =? 6) || (m =? 9) || (m =? 11) then 30 else 31.
Definition MIN_YEAR : Z := -262143.
Definition MAX_YEAR : Z := 262142.
Definition date_ok (y m d : Z) : bool :=
  (MIN_YEAR <=? y) && (y <=? MAX_YEAR) && (1 <=? m) && (m <=? 12) && (1 <=? d) && (d <=? month_len y m).
(** NaiveDate::from_ymd_opt *)
Definition from_ymd (y m d : Z) : option Z := if date_ok y m d then Some (day_number y m d) else None.
(** A NaiveDateTime: seconds since 1970-01-01 00:00:00 on the same clock, and nanoseconds. *)
Definition naive := (Z * Z)%type.
Definition MIN_SEC : Z := day_number MIN_YEAR 1 1 * 86400.
Definition MAX_SEC : Z := day_number MAX_YEAR 12 31 * 86400 + 86399.
Definition sec_ok (s : Z) : bool := (MIN_SEC <=? s) && (s <=? MAX_SEC).
(** NaiveTime::from_hms_nano_opt, without chrono's own leap seconds *)
Definition from_hms (h mi s ns : Z) : option (Z * Z) :=
  if (0 <=? h) && (h <? 24) && (0 <=? mi) && (mi <? 60) && (0 <=? s) && (s <? 60) && (0 <=? ns) && (ns <? G)
  then Some (h * 3600 + mi * 60 + s, ns) else None.
Definition at_day (d : Z) (t : Z * Z) : naive := (d * 86400 + fst t, snd t).
(** year, month, day, hour, minute, second *)
Definition fields := (Z * Z * Z * (Z * Z * Z))%type.
Definition fields_of (s : Z) : fields := let r := s mod 86400 in (civil (s / 86400), (r / 3600, r / 60 mod 60, r mod 60)).

(** * Time.gm, Time.local, Time.new: the fields (time.rs:1672-1845) *)
Definition days_in_month (y m : Z) : Z :=
  if (m =? 1) || (m =? 3) || (m =? 5) || (m =? 7) || (m =? 8) || (m =? 10) || (m =? 12) then 31
  else if (m =? 4) || (m =? 6) || (m =? 9) || (m =? 11) then 30
  else if m =? 2 then if ((Z.rem y 4 =? 0) && negb (Z.rem y 100 =? 0)) || (Z.rem y 400 =? 0) then 29 else 28
  else 0.
(** build_naive_datetime (1777-1827) *)
Definition build_naive (y mon day h mi s ns : Z) : res naive :=
  if negb ((1 <=? mon) && (mon <=? 12)) then Raise
  else if negb ((1 <=? day) && (day <=? 31)) then Raise
  else if (23 <? h) || (59 <? mi) || (60 <? s) || (G <=? ns) then Raise
  else
    let sec_real := if s =? 60 then 0 else s in
    bind (match from_ymd y mon day with
          | Some d => Ok d
          | None =>
              let dim := days_in_month y mon in
              if day <=? dim then Raise
              else let excess := day - dim in
                   or_raise (if mon =? 12 then from_ymd (y + 1) 1 excess else from_ymd y (mon + 1) excess)
          end) (fun d =>
    bind (or_raise (from_hms h mi sec_real ns)) (fun t =>
    let n := at_day d t in
    if s =? 60 then if sec_ok (fst n + 60) then Ok (fst n + 60, snd n) else Raise else Ok n)).
(** The seconds argument: an Integer or a Rational [n]/[d], or a Float of that value (time_sec_to_i64_nsec 1892-1912,
    rational_split_sec_nsec 1918-1928). The product of a Float with 10^9 is taken without its rounding. *)
Inductive secs := SRat (n d : Z) | SFloat (n d : Z).
Definition clamp_ns (z : Z) : Z := Z.max 0 (Z.min 999999999 z).
Definition round_away (n d : Z) : Z := Z.sgn n * ((2 * Z.abs n + d) / (2 * d)).
Definition sec_split (s : secs) : Z * Z :=
  match s with
  | SRat n d => ((if i64_fits (n / d) then n / d else 0), clamp_ns ((n mod d) * G / d))
  | SFloat n d => (Z.quot n d, clamp_ns (round_away (Z.rem n d * G) d))
  end.
(** The microseconds argument, an Integer or a Rational [n]/[d] (time_usec_to_nsec 2035-2049) *)
Definition usec_ns (n d : Z) : option Z := let v := n * 1000 / d in if (0 <=? v) && (v <? 2 ^ 32) then Some v else None.
Definition u32_of (z : Z) : option Z := if (0 <=? z) && (z <? 2 ^ 32) then Some z else None.
Definition i32_of (z : Z) : option Z := if (-(2 ^ 31) <=? z) && (z <? 2 ^ 31) then Some z else None.
(** from_args (1704-1769), the arguments given as Integers, and generate_time's handling of None (2072-2073) *)
Definition from_args (y mon day h mi : Z) (s : secs) (us : option (Z * Z)) : res naive :=
  bind (or_raise (i32_of y)) (fun y => bind (or_raise (u32_of mon)) (fun mon => bind (or_raise (u32_of day)) (fun day =>
  bind (or_raise (u32_of h)) (fun h => bind (or_raise (u32_of mi)) (fun mi =>
  let '(sec, frac) := sec_split s in
  bind (or_raise (match us with Some (n, d) => usec_ns n d | None => Some frac end)) (fun ns =>
  bind (or_raise (u32_of sec)) (fun sec => build_naive y mon day h mi sec ns))))))).

(** * Zones *)
(** A zone is its offset at every instant; chrono finds the offsets a clock reading can have. *)
Definition zone := Z -> Z.
Inductive look := Single (o : Z) | Ambiguous (o1 o2 : Z) | Nowhere.
Definition from_local (z : zone) (cands : list Z) (w : Z) : look :=
  match filter (fun o => z (w - o) =? o) cands with [] => Nowhere | [o] => Single o | o1 :: o2 :: _ => Ambiguous o1 o2 end.
(** TimeInner: Utc or Local; the instant in seconds and nanoseconds; the offset. *)
Record tm := mkT { utc : bool; ts : Z; ns : Z; off : Z }.
(** time_local with generate_time (1643-1649, 2065-2079) *)
Definition time_local (z : zone) (cands : list Z) (n : res naive) : res tm :=
  bind n (fun n => match from_local z cands (fst n) with Single o => Ok (mkT false (fst n - o) (snd n) o) | _ => Raise end).
Definition time_gm (n : res naive) : res tm := bind n (fun n => Ok (mkT true (fst n) (snd n) 0)).

(** * Arithmetic, comparison, rounding *)
Definition total (t : tm) : Z := ts t * G + ns t.
(** num_exact_total_nanos (2022-2028) on an exact number [n]/[d] *)
Definition exact_nanos (n d : Z) : res Z := let v := n * G / d in if i64_fits v then Ok v else Raise.
(** DateTime + Duration panics outside chrono's range *)
Definition shift_ns (t : tm) (v : Z) : res tm :=
  let s := (total t + v) / G in
  if sec_ok s then Ok (mkT (utc t) s ((total t + v) mod G) (off t)) else Panic.
(** add (2757-2768) *)
Definition add (t : tm) (n d : Z) : res tm := bind (exact_nanos n d) (fun v => shift_ns t v).
(** sub with a number (2746-2752) and with a Time (2740-2745): the nanoseconds, before they become a Float *)
Definition sub_num (t : tm) (n d : Z) : res tm := bind (exact_nanos n d) (fun v => shift_ns t (- v)).
Definition sub_time (t u : tm) : res Z := let v := total t - total u in if i64_fits v then Ok v else Panic.
(** Ord::cmp (2782-2798): both sides as (timestamp, nanosecond) in UTC *)
Definition cmp (t u : tm) : Z :=
  match Z.compare (ts t) (ts u) with
  | Lt => -1 | Gt => 1
  | Eq => match Z.compare (ns t) (ns u) with Lt => -1 | Gt => 1 | Eq => 0 end
  end.
(** What Time#hash digests (2921-2931) *)
Definition hash_of (t : tm) : Z * Z := (ts t, ns t).
(** Time.at (1549-1625): seconds [n]/[d], sub-seconds [sn]/[sd] in units of [mult] nanoseconds, in a fixed offset *)
Definition time_at (n d : Z) (sub : option (Z * Z)) (mult : Z) (o : Z) : res tm :=
  let s := n / d in
  if i64_fits s then
    let nsec := clamp_ns ((n mod d) * G / d) in
    let u := match sub with Some (sn, sd) => sn * mult / sd | None => 0 end in
    if (-(2 ^ 127) <=? u) && (u <? 2 ^ 127) then
      let tot := s * G + nsec + u in
      if i64_fits (tot / G) then if sec_ok (tot / G) then Ok (mkT false (tot / G) (tot mod G) o) else Raise else Raise
    else Raise
  else Raise.
(** rescale_nsec (715-741) and apply_subsec (743-769); mode -1 is floor, 1 ceil, 0 round. *)
Definition rescale (n p mode : Z) : Z :=
  if 9 <=? p then n else
  let div := 10 ^ (9 - p) in
  let q := n / div in
  let r := n mod div in
  (if mode =? -1 then q else if mode =? 1 then if r =? 0 then q else q + 1 else if div <=? r * 2 then q + 1 else q) * div.
Definition apply_subsec (t : tm) (mode p : Z) : res tm :=
  if (0 <=? p) && (p <=? 9) then
    let n := rescale (ns t) p mode in
    if G <=? n then if sec_ok (ts t + 1) then Ok (mkT (utc t) (ts t + 1) 0 (off t)) else Panic
    else Ok (mkT (utc t) (ts t) n (off t))
  else Raise.

(** * Marshal *)
Definition le32 (w : Z) : list Z := [w mod 256; w / 256 mod 256; w / 65536 mod 256; w / 16777216 mod 256].
Definition un32 (l : list Z) : Z := match l with [a; b; c; d] => a + b * 256 + c * 65536 + d * 16777216 | _ => 0 end.
(** _dump (491-515). The or of fields in their own bits is their sum; the year is cut to 16 bits. *)
Definition dump (t : tm) : list Z :=
  let '(y, mo, d, (h, mi, s)) := fields_of (ts t + off t) in
  let high := 2 ^ 31 + (if utc t then 2 ^ 30 else 0) + (y - 1900) mod 2 ^ 16 * 2 ^ 14 + (mo - 1) * 2 ^ 10 + d * 2 ^ 5 + h in
  let low := mi * 2 ^ 26 + s * 2 ^ 20 + (ns t / 1000) mod 2 ^ 20 in
  le32 high ++ le32 low.
(** What Marshal.dump adds (marshal.rs:1669-1722): nano_num unless zero, offset unless UTC. *)
Record image := mkI { payload : list Z; nano : option Z; offset : option Z }.
Definition marshal_dump (t : tm) : image :=
  mkI (dump t) (if ns t mod 1000 =? 0 then None else Some (ns t mod 1000)) (if utc t then None else Some (off t)).
(** _load (525-572), [Local] given by a zone *)
Definition load (z : zone) (cands : list Z) (b : list Z) : res tm :=
  if Z.of_nat (length b) =? 8 then
    let high := un32 (firstn 4 b) in
    let low := un32 (skipn 4 b) in
    if (high / 2 ^ 31) mod 2 =? 0 then
      (* chrono's from_timestamp takes a second up to twice as long when it is the last of its minute *)
      let nsec := Z.min (low * 1000) (2 ^ 32 - 1) in
      if (nsec <? G) || ((nsec <? 2 * G) && (high mod 60 =? 59)) then Ok (mkT true high nsec 0) else Raise
    else
      let is_utc := (high / 2 ^ 30) mod 2 =? 1 in
      let y := (high / 2 ^ 14) mod 2 ^ 16 + 1900 in
      let mo := (high / 2 ^ 10) mod 2 ^ 4 in
      let d := (high / 2 ^ 5) mod 2 ^ 5 in
      let h := high mod 2 ^ 5 in
      let mi := (low / 2 ^ 26) mod 2 ^ 6 in
      let s := (low / 2 ^ 20) mod 2 ^ 6 in
      let us := low mod 2 ^ 20 in
      bind (or_raise (from_ymd y (mo + 1) d)) (fun dd =>
      bind (or_raise (from_hms h mi s (us * 1000))) (fun tt =>
      let n := at_day dd tt in
      if is_utc then Ok (mkT true (fst n) (snd n) 0)
      else match from_local z cands (fst n) with
           | Single o | Ambiguous o _ => Ok (mkT false (fst n - o) (snd n) o)
           | Nowhere => Raise
           end))
  else Raise.
(** time_reinterpret_offset (606-620) and time_add_nanos (592-599) as Marshal.load uses them (marshal.rs:537-562) *)
Definition reinterpret (t : tm) (o : Z) : tm :=
  let w := ts t + off t in
  let o := if (-86400 <? o) && (o <? 86400) then o else 0 in
  if sec_ok (w - o) then mkT false (w - o) (ns t) o else mkT false w (ns t) o.
Definition marshal_load (z : zone) (cands : list Z) (i : image) : res tm :=
  bind (load z cands (payload i)) (fun t =>
  let t := match offset i with Some o => reinterpret t o | None => t end in
  match nano i with Some v => if v =? 0 then Ok t else shift_ns t v | None => Ok t end).

(** * Texts: lists of ASCII codes *)
Definition is_digit (c : Z) : bool := (48 <=? c) && (c <=? 57).
Fixpoint dec_loop (fuel : nat) (n : Z) (acc : list Z) : list Z :=
  match fuel with
  | O => acc
  | S k => if n <? 10 then (48 + n) :: acc else dec_loop k (n / 10) ((48 + n mod 10) :: acc)
  end.
(** format! of a number below 10^20, and zero padded *)
Definition dec (n : Z) : list Z := dec_loop 20 n [].
Definition pad (w : Z) (l : list Z) : list Z := repeat 48 (Z.to_nat (w - Z.of_nat (length l))) ++ l.
Fixpoint num_of (acc : Z) (l : list Z) : Z := match l with [] => acc | c :: l => num_of (10 * acc + (c - 48)) l end.
(** parse_utc_offset_string (1254-1318) *)
Definition east (o : Z) : res Z := if (-86400 <? o) && (o <? 86400) then Ok o else Raise.
Definition zone_letter (c : Z) : res Z :=
  if (65 <=? c) && (c <=? 73) then Ok (c - 65 + 1)
  else if (75 <=? c) && (c <=? 77) then Ok (c - 75 + 10)
  else if (78 <=? c) && (c <=? 89) then Ok (- (c - 78 + 1))
  else if c =? 90 then Ok 0 else Raise.
Definition hms_of (ds : list Z) : res (Z * Z * Z) :=
  match ds with
  | [a; b] => Ok (num_of 0 [a; b], 0, 0)
  | [a; b; c; d] => Ok (num_of 0 [a; b], num_of 0 [c; d], 0)
  | [a; b; c; d; e; f] => Ok (num_of 0 [a; b], num_of 0 [c; d], num_of 0 [e; f])
  | _ => Raise
  end.
Definition is_utc_text (s : list Z) : bool := match s with [a; b; c] => (a =? 85) && (b =? 84) && (c =? 67) | _ => false end.
Definition parse_offset (s : list Z) : res Z :=
  if negb (forallb (fun c => c <? 128) s) then Raise
  else if is_utc_text s then Ok 0
  else match s with
       | [c] => bind (zone_letter c) (fun h => east (h * 3600))
       | [] => Raise
       | sg :: rest =>
           if (sg =? 43) || (sg =? 45) then
             let ds := filter (fun c => negb (c =? 58)) rest in
             if negb (forallb is_digit ds) then Raise
             else bind (hms_of ds) (fun '(h, m, sec) =>
                  if 23 <? h then Raise
                  else if (59 <? m) || (59 <? sec) then Raise
                  else east ((if sg =? 43 then 1 else -1) * (h * 3600 + m * 60 + sec)))
           else Raise
       end.
(** format_offset (2437-2493); [minus], [space]: the flags; [width]: 0 when absent *)
Definition two (n : Z) : list Z := pad 2 (dec n).
Definition format_offset (o colons : Z) (minus space : bool) (width : Z) : list Z :=
  let neg := (minus && (o =? 0)) || (o <? 0) in
  let sign := if neg then 45 else 43 in
  let a := Z.abs o in
  let h := a / 3600 in
  let m := a / 60 mod 60 in
  let s := a mod 60 in
  let body := if colons =? 0 then two h ++ two m else if colons =? 1 then two h ++ 58 :: two m else two h ++ 58 :: two m ++ 58 :: two s in
  let count := Z.to_nat (width - (1 + Z.of_nat (length body))) in
  if space then repeat 32 count ++ sign :: body else sign :: repeat 48 count ++ body.
(** format_subsec (2501-2514) for %N, and what %L does with its width (2407-2415) *)
Definition format_subsec (n w : Z) : list Z :=
  if 9 <=? w then pad 9 (dec n) ++ repeat 48 (Z.to_nat (w - 9)) else pad w (dec (n / 10 ^ (9 - w))).
Definition format_milli (n w : Z) : list Z := pad 3 (dec (n / 1000000)).
(** iso8601 (642-687), a Local time's suffix for an offset of whole minutes *)
Definition year_text (y : Z) : list Z := if y <? 0 then 45 :: pad 4 (dec (- y)) else pad 4 (dec y).
Definition iso8601 (t : tm) (digits : Z) : list Z :=
  let '(y, mo, d, (h, mi, s)) := fields_of (ts t + off t) in
  year_text y ++ 45 :: two mo ++ 45 :: two d ++ 84 :: two h ++ 58 :: two mi ++ 58 :: two s
  ++ (if 0 <? digits then 46 :: pad digits (dec (ns t / 10 ^ (9 - digits))) else [])
  ++ (if utc t then [90] else format_offset (off t) 1 false false 0).

(** * Time.new with a text (1367-1540) *)
Fixpoint digits (l : list Z) : list Z * list Z :=
  match l with c :: l' => if is_digit c then let '(a, b) := digits l' in (c :: a, b) else ([], l) | [] => ([], []) end.
Definition i64_text (l : list Z) : option Z := let v := num_of 0 l in if v <? 2 ^ 63 then Some v else None.
Definition wrap32 (z : Z) : Z := (z + 2 ^ 31) mod 2 ^ 32 - 2 ^ 31.
Fixpoint first9 (k : nat) (l : list Z) : list Z :=
  match k with O => [] | S k => match l with [] => 48 :: first9 k [] | c :: l => c :: first9 k l end end.
Definition truncate_subsec (n : Z) (p : option Z) : Z :=
  match p with Some p => if (0 <=? p) && (p <? 9) then n / 10 ^ (9 - p) * 10 ^ (9 - p) else n | None => n end.
Definition is_space (c : Z) : bool := ((9 <=? c) && (c <=? 13)) || (c =? 32).
Fixpoint trim_start (l : list Z) : list Z := match l with c :: l' => if is_space c then trim_start l' else l | [] => [] end.
Definition trim (l : list Z) : list Z := rev (trim_start (rev (trim_start l))).
(** build_time_string (1503-1540): a text offset, an in: offset, or the local zone *)
Definition build_text (z : zone) (cands : list Z) (y mo d h mi s : Z) (o : list Z) (given : option Z) (nsec : Z) : res tm :=
  bind (or_raise (from_ymd (wrap32 y) mo d)) (fun dd =>
  bind (or_raise (from_hms h mi s 0)) (fun tt =>
  let w := fst (at_day dd tt) in
  let fixed o := if sec_ok (w - o) then Ok (mkT false (w - o) nsec o) else Raise in
  match o with
  | _ :: _ => bind (parse_offset o) fixed
  | [] => match given with
          | Some o => fixed o
          | None => match from_local z cands w with
                    | Single o | Ambiguous o _ => Ok (mkT false (w - o) nsec o)
                    | Nowhere => Raise
                    end
          end
  end)).
Definition two_digits (l : list Z) : option (Z * list Z) :=
  match digits l with ([a; b], r) => Some (num_of 0 [a; b], r) | _ => None end.
Definition expect (c : Z) (l : list Z) : option (list Z) := match l with x :: r => if x =? c then Some r else None | [] => None end.
Fixpoint skip_blanks (l : list Z) : list Z := match l with c :: l' => if c =? 32 then skip_blanks l' else l | [] => [] end.
Definition fraction (l : list Z) : option (Z * list Z) :=
  match l with
  | c :: r => if c =? 46 then match digits r with ([], _) => None | (f, r) => Some (num_of 0 (first9 9 f), r) end else Some (0, l)
  | [] => Some (0, l)
  end.
Definition obind {A B} (o : option A) (f : A -> option B) : option B := match o with Some a => f a | None => None end.
(** The fields of a full text and what is left of it *)
Definition scan_time (l : list Z) : option (Z * Z * Z * (Z * Z * Z) * Z * list Z) :=
  let '(ys, l) := digits l in
  if Z.of_nat (length ys) <? 4 then None else
  obind (i64_text ys) (fun y => obind (expect 45 l) (fun l => obind (two_digits l) (fun '(mo, l) =>
  obind (expect 45 l) (fun l => obind (two_digits l) (fun '(d, l) =>
  obind (match l with c :: l' => if (c =? 32) || (c =? 84) then Some l' else None | [] => None end) (fun l =>
  obind (two_digits (skip_blanks l)) (fun '(h, l) => obind (expect 58 l) (fun l =>
  obind (two_digits l) (fun '(mi, l) => obind (expect 58 l) (fun l => obind (two_digits l) (fun '(s, l) =>
  obind (fraction l) (fun '(n, l) => Some (y, mo, d, (h, mi, s), n, l))))))))))))).
Definition time_text (z : zone) (cands : list Z) (l : list Z) (given : option Z) (p : option Z) : res tm :=
  match digits l with
  | ([], _) => Raise
  | (ys, []) => bind (or_raise (i64_text ys)) (fun y => build_text z cands y 1 1 0 0 0 [] given 0)
  | _ =>
      bind (or_raise (scan_time l)) (fun '(y, mo, d, (h, mi, s), n, rest) =>
      let o := trim rest in
      if (match o, rest with [], _ :: _ => true | _, _ => existsb is_space o end) then Raise
      else build_text z cands y mo d h mi s o given (truncate_subsec n p))
  end.
