(** Texts of durations, stamps and ranges: crates/core/src/stamp_fmt.rs and stamp_range.rs. The
    arithmetic and [parse_duration_str] are in ModelFn.v, where [StampEF] uses them. *)
From Coq Require Import SpecFloat.
From Verif Require Import Bytes ModelAbe ModelFmt ModelFn ModelQuery.

(** ** Durations as text, stamp_fmt.rs:119-152 *)
(** [Duration::div_duration_f64]. The standard library divides either the nanoseconds or the
    seconds, both as binary64; which one depends on its version. Durations are whole microseconds. *)
Definition f64_of (n : N) : spec_float := binary_normalize 53 1024 (Z.of_N n) 0 false.
Definition f64_add := SFadd 53 1024. Definition f64_mul := SFmul 53 1024. Definition f64_div := SFdiv 53 1024.
(** [floor() as u32] of a number that is not negative; the cast saturates. *)
Definition f64_floor_u32 (f : spec_float) : N :=
  match f with
  | S754_finite false m e =>
      N.min (match e with Z0 => N.pos m | Zpos _ => N.pos m * 2 ^ Z.to_N e | Zneg p => N.pos m / 2 ^ N.pos p end) (2 ^ 32 - 1)
  | S754_infinity false => 2 ^ 32 - 1
  | _ => 0
  end.
Definition nanos_f64 (d : N) : spec_float := f64_add (f64_mul (f64_of (d / 1000000)) (f64_of 1000000000)) (f64_of (d mod 1000000 * 1000)).
Definition secs_f64 (d : N) : spec_float := f64_add (f64_of (d / 1000000)) (f64_div (f64_of (d mod 1000000 * 1000)) (f64_of 1000000000)).
Definition div_by_nanos (a b : N) : N := f64_floor_u32 (f64_div (nanos_f64 a) (nanos_f64 b)).
Definition div_by_secs (a b : N) : N := f64_floor_u32 (f64_div (secs_f64 a) (secs_f64 b)).
(** stamp_fmt.rs:119-148; [units] and [percision] at most 9. *)
Fixpoint fmt_parts (fdiv : N -> N -> N) (zeros : bool) (delim : bytes) (parts : list (N * N)) (delta : N) : bytes :=
  match parts with
  | [] => []
  | (u, v) :: r =>
      let c := fdiv delta v in
      (if zeros || negb (c =? 0) then delim ++ to_string c ++ [u] else []) ++ fmt_parts fdiv zeros delim r (delta - v * c)
  end.
Definition duration_to_string (fdiv : N -> N -> N) (delta : N) (percision units : nat) (zeros : bool) (delim : bytes) : bytes :=
  let formats := firstn percision DELTA_FORMATS in
  match firstn units (filter (fun '(_, v) => v <=? delta) formats) with
  | [] => 48 :: [fst (last formats (0, 0))]
  | parts => fmt_parts fdiv zeros delim parts delta
  end.
(** stamp_fmt.rs:150-152 *)
Definition duration_as_stamp_dfmt (fdiv : N -> N -> N) (d : N) : bytes := duration_to_string fdiv d 9 10 false [].
(** stamp_fmt.rs:104-118 *)
Definition delta_stamp_p (fdiv : N -> N -> N) (now other : N) (percision units : nat) : bytes :=
  let '(micros, sign) := if now <? other then (other - now, 43) else (now - other, 45) in
  sign :: duration_to_string fdiv micros percision units true (str " ").
(** stamp_fmt.rs:191-195 [DurationStr::stamp]: a cast of the microseconds to 64 bit *)
Definition durationstr_stamp (d : N) : N := d mod 2 ^ 64.

(** ** Stamps as text *)
(** stamp_fmt.rs:154-163 *)
Definition stamp_from_digits (t : bytes) : outcome unit N :=
  if beqb t (str "++") then Ok MAX_STAMP
  else if beqb t (str "0") || beqb t (str "--") then Ok 0
  else if forallb (fun c => (48 <=? c) && (c <=? 57)) t then match parse_uint 8 t with Some v => Ok v | None => Err tt end
  else Err tt.
(** stamp_fmt.rs:164-177 *)
Definition stamp_from_now (t : bytes) (now : N) : outcome unit N :=
  if beqb t (str "now") then Ok now
  else match t with
       | 43 :: r => obind (parse_duration_str r) (fun d => Ok (stamp_add now d))
       | 45 :: r => obind (parse_duration_str r) (fun d => Ok (stamp_sub now d))
       | _ => Err tt
       end.
(** stamp_fmt.rs:179-185 *)
Definition stamp_from_str (t : bytes) (now : option N) : outcome unit N :=
  match stamp_from_digits t with
  | Ok s => Ok s
  | _ => match now with Some n => stamp_from_now t n | None => Err tt end
  end.

(** ** Ranges, stamp_range.rs:24-66 and 102-146 *)
(** str::split(".."): the pieces between the leftmost, not overlapping occurrences *)
Fixpoint split_dots (cur t : bytes) : list bytes :=
  match t with
  | [] => [cur]
  | c :: r =>
      if c =? 46 then match r with d :: r' => if d =? 46 then cur :: split_dots [] r' else split_dots (cur ++ [c]) r | [] => [cur ++ [c]] end
      else split_dots (cur ++ [c]) r
  end.
(** stamp_range.rs:108-131; [transpose] gives the error of the stamp. *)
Definition range_end (o : option bytes) (now : option N) (default : N) : outcome unit N :=
  match o with None | Some [] => Ok default | Some t => stamp_from_str t now end.
Definition range_from_str (t : bytes) (now : option N) : outcome unit StampRange :=
  let parts := split_dots [] t in
  obind (range_end (nth_error parts 0) now MAX_STAMP) (fun s =>
  obind (range_end (nth_error parts 1) now 0) (fun e => Ok (mkRange s e))).
(** stamp_range.rs:139-146 *)
Definition range_display (r : StampRange) : bytes :=
  if sr_start r =? MAX_STAMP then str "++.." ++ to_string (sr_end r)
  else if sr_end r =? MAX_STAMP then to_string (sr_start r) ++ str "..++"
  else to_string (sr_start r) ++ str ".." ++ to_string (sr_end r).
(** stamp_range.rs:36-50. The addition overflows: a panic with overflow checks, else it wraps. *)
Definition range_after (checks : bool) (s : N) : outcome unit StampRange :=
  if s =? MAX_STAMP then if checks then Panic else Ok (mkRange 0 MAX_STAMP) else Ok (mkRange (s + 1) MAX_STAMP).
Definition range_asc_from (checks : bool) (s : N) : outcome unit StampRange :=
  if s =? MAX_STAMP then if checks then Panic else Ok (mkRange 0 MAX_STAMP) else Ok (mkRange (s + 1) MAX_STAMP).
