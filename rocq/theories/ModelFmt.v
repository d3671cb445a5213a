(** Text of numbers and fixed size byte strings: the integer parsing and printing of the standard
    library that the code uses, base64, [AB], [B64] and the endian integers.
    crates/byte-fmt/src/lib.rs, crates/byte-fmt/src/endian_types.rs, crates/abe/src/lib.rs,
    crates/abe/src/scope/base.rs. *)
From Verif Require Export Bytes ModelAbe.

(** ** Integers as text (core::num, used by uint.rs:10-15, endian_types.rs:97-107) *)
(** [to_string] of an unsigned integer. The number of digits is at most its number of bits, which
    is the fuel. *)
Fixpoint dec_loop (fuel : nat) (n : N) (acc : bytes) : bytes :=
  match fuel with
  | O => acc
  | S f => let acc' := (48 + n mod 10) :: acc in if n / 10 =? 0 then acc' else dec_loop f (n / 10) acc'
  end.
Definition to_string (n : N) : bytes := dec_loop (S (N.to_nat (N.log2 n))) n [].
(** [char::to_digit]. *)
Definition digit_of (radix c : N) : option N :=
  let v := if (48 <=? c) && (c <=? 57) then Some (c - 48)
           else if (97 <=? c) && (c <=? 122) then Some (c - 87)
           else if (65 <=? c) && (c <=? 90) then Some (c - 55) else None in
  match v with Some d => if d <? radix then Some d else None | None => None end.
(** [from_str_radix] of an unsigned type with maximum [max]: a leading plus is allowed, a value
    above [max] is an error. *)
Fixpoint parse_digits (max radix acc : N) (t : bytes) : option N :=
  match t with
  | [] => Some acc
  | c :: r =>
      match digit_of radix c with
      | None => None
      | Some d => let v := acc * radix + d in if max <? v then None else parse_digits max radix v r
      end
  end.
Definition parse_radix (max radix : N) (t : bytes) : option N :=
  match t with
  | [] => None
  | 43 :: r => match r with [] => None | _ => parse_digits max radix 0 r end
  | _ => parse_digits max radix 0 t
  end.
Definition umax_of (k : nat) : N := 256 ^ N.of_nat k - 1.
(** [str::parse] of an unsigned type of [k] bytes. A byte string that is no UTF-8 holds a byte that
    is no digit, so the check of uint.rs:14 needs no model. *)
Definition parse_uint (k : nat) (t : bytes) : option N := parse_radix (umax_of k) 10 t.
(** [str::parse] of [isize]. *)
Definition parse_isize (t : bytes) : option Z :=
  match t with
  | 45 :: r => match r with
               | [] => None
               | _ => match parse_digits (2 ^ 63) 10 0 r with Some n => Some (- Z.of_N n)%Z | None => None end
               end
  | _ => match parse_radix (2 ^ 63 - 1) 10 t with Some n => Some (Z.of_N n) | None => None end
  end.

(** ** Trimming and fitting, abe/src/lib.rs:34-100 *)
Fixpoint cut_prefixeq (x : N) (b : bytes) : bytes :=
  match b with [] => [] | y :: r => if y =? x then cut_prefixeq x r else b end.
Definition cut_prefix_nulls (b : bytes) : bytes := cut_prefixeq 0 b.
Definition cut_ending_nulls2 (b : bytes) : bytes := rev (cut_prefixeq 0 (rev b)).
Inductive FitSliceErr := FitErr.
Definition fit_back (fill L : N) (b : bytes) : outcome FitSliceErr bytes :=
  if L <? lenN b then Err FitErr else Ok (repeat fill (N.to_nat (L - lenN b)) ++ b).
Definition fit_front (L : N) (b : bytes) : outcome FitSliceErr bytes :=
  if L <? lenN b then Err FitErr else Ok (b ++ repeat 0 (N.to_nat (L - lenN b))).
Definition fit (L : N) (b : bytes) : outcome FitSliceErr bytes :=
  if negb (lenN b =? L) then Err FitErr else fit_front L b.

(** ** base64: the engines of the base64 crate, BASE64_URL_SAFE_NO_PAD and BASE64_STANDARD, as its
    documentation describes them: no stray characters, no trailing bits, canonical padding. *)
Definition b64_char (url : bool) (v : N) : N :=
  if v <? 26 then 65 + v else if v <? 52 then 71 + v else if v <? 62 then v - 4
  else if v =? 62 then (if url then 45 else 43) else (if url then 95 else 47).
Definition b64_value (url : bool) (c : N) : option N :=
  if (65 <=? c) && (c <=? 90) then Some (c - 65)
  else if (97 <=? c) && (c <=? 122) then Some (c - 71)
  else if (48 <=? c) && (c <=? 57) then Some (c + 4)
  else if c =? (if url then 45 else 43) then Some 62
  else if c =? (if url then 95 else 47) then Some 63 else None.
Fixpoint b64_digits (b : bytes) : list N :=
  match b with
  | x :: y :: z :: r => x / 4 :: (x mod 4) * 16 + y / 16 :: (y mod 16) * 4 + z / 64 :: z mod 64 :: b64_digits r
  | [x; y] => [x / 4; (x mod 4) * 16 + y / 16; (y mod 16) * 4]
  | [x] => [x / 4; (x mod 4) * 16]
  | [] => []
  end.
Fixpoint b64_bytes (d : list N) : option bytes :=
  match d with
  | a :: b :: c :: e :: r =>
      match b64_bytes r with
      | Some l => Some (a * 4 + b / 16 :: (b mod 16) * 16 + c / 4 :: (c mod 4) * 64 + e :: l)
      | None => None
      end
  | [a; b; c] => if c mod 4 =? 0 then Some [a * 4 + b / 16; (b mod 16) * 16 + c / 4] else None
  | [a; b] => if b mod 16 =? 0 then Some [a * 4 + b / 16] else None
  | [_] => None
  | [] => Some []
  end.
Fixpoint b64_values (url : bool) (t : bytes) : option (list N) :=
  match t with
  | [] => Some []
  | c :: r => match b64_value url c, b64_values url r with Some v, Some l => Some (v :: l) | _, _ => None end
  end.
Definition b64_decode_raw (url : bool) (t : bytes) : option bytes :=
  match b64_values url t with Some d => b64_bytes d | None => None end.
(** base.rs:97-102 *)
Definition base64 (b : bytes) : bytes := map (b64_char true) (b64_digits b).
Definition base64_decode (t : bytes) : option bytes := b64_decode_raw true t.
(** BASE64_STANDARD *)
Definition pad_len (n : N) : N := (4 - n mod 4) mod 4.
Definition base64_std (b : bytes) : bytes :=
  let t := map (b64_char false) (b64_digits b) in t ++ repeat 61 (N.to_nat (pad_len (lenN t))).
Definition base64_std_decode (t : bytes) : option bytes :=
  let body := rev (cut_prefixeq 61 (rev t)) in
  if lenN t =? lenN body + pad_len (lenN body) then b64_decode_raw false body else None.
(** base.rs:103-118 *)
Definition mini_b64 (v : bytes) : bytes :=
  let st := base64 v in
  let padc := lenN v / 8 in
  if lenN v <=? 12 then st
  else takeN 6 st ++ repeat 58 (N.to_nat (padc / 2)) ++ (if negb (padc mod 2 =? 0) then [46] else []) ++ dropN (lenN st - 2) st.

(** ** AB, byte-fmt/src/lib.rs *)
(** lib.rs:345-348 the text of any [AB]. *)
Definition ab_display (b : bytes) : bytes := as_abtxt b.
(** lib.rs:270-275 [AB::parse_abtxt], also [FromStr] (lib.rs:353-358). *)
Definition ab_parse (L : N) (t : bytes) : outcome ABTxtError bytes :=
  obind (parse_abtxt_into t L) (fun x => match fit_back 0 L x with Ok v => Ok v | Err _ => Err EFit | Panic => Panic | OutOfFuel => OutOfFuel end).
(** lib.rs:353-358 [AB<Vec<u8>>] *)
Definition ab_vec_parse (t : bytes) : outcome ABTxtError bytes := parse_abtxt_upto_max t 65000.
(** lib.rs:124-131 [x_prefix_cut] *)
Definition x_prefix_cut (b : bytes) : bool * bytes :=
  if hd 0 b =? 255 then (true, cut_prefixeq 255 b) else (false, cut_prefix_nulls b).
Definition ab_mode (m : bool) : bytes := if m then str "f" else str "a".
(** lib.rs:157-167 [write_abe], the expression given by [to_abe] *)
Definition ab_to_abe (b : bytes) : ABE :=
  let '(m, cut) := x_prefix_cut b in
  let st := as_abtxt cut in
  if lenN b =? 16 then ALst [ABytes (ab_mode m); ACtr CColon; ABytes st]
  else ALst [ABytes (ab_mode m); ACtr CColon; ABytes st; ACtr CColon; ABytes (to_string (lenN b))].
(** lib.rs:168-178 [to_abe_str] *)
Definition ab_to_abe_str (b : bytes) : bytes :=
  let '(m, cut) := x_prefix_cut b in
  let st := as_abtxt cut in
  if lenN b =? 16 then str "[" ++ ab_mode m ++ str ":" ++ st ++ str "]"
  else str "[" ++ ab_mode m ++ str ":" ++ st ++ str ":" ++ to_string (lenN b) ++ str "]".
(** lib.rs:228-250 [ab], [try_ab], [abx]; [ab] and [abx] panic instead of the error. *)
Definition try_ab (L : N) (b : bytes) : outcome FitSliceErr bytes := fit_back 0 L b.
Definition abx (L : N) (b : bytes) : outcome FitSliceErr bytes := match fit_back 255 L b with Err _ => Panic | r => r end.

(** ** B64 *)
(** lib.rs:556-562 *)
Definition b64_display (b : bytes) : bytes := base64 b.
(** lib.rs:531-540 [parse_str] of [B64<[u8; N]>]; a result of another size is a debug assertion. *)
Definition b64_parse (L : N) (t : bytes) : option bytes :=
  if negb (lenN t =? (L * 4 + 2) / 3) then None
  else match base64_decode t with
       | Some b => if lenN b =? L then Some b else None
       | None => None
       end.
(** lib.rs:520-526 *)
Definition b64_fit_or_parse (L : N) (t : bytes) : option bytes :=
  match b64_parse L t with Some b => Some b | None => match fit L t with Ok b => Some b | _ => None end end.
(** lib.rs:414-424 *)
Definition b64_to_abe (b : bytes) : ABE := ALst [ABytes (str "b"); ACtr CColon; ABytes (base64 b)].
Definition b64_to_abe_str (b : bytes) : bytes := str "[b:" ++ b64_display b ++ str "]".

(** ** Endian integers, endian_types.rs:17-150; [le]: little endian; [k]: size in bytes *)
Definition uint_new (le : bool) (k : nat) (v : N) : bytes := if le then rev (be_encode k v) else be_encode k v.
Definition uint_get (le : bool) (b : bytes) : N := if le then be_decode (rev b) else be_decode b.
(** endian_types.rs:43 *)
Definition uint_incr (le : bool) (k : nat) (b : bytes) : bytes := uint_new le k (N.min (uint_get le b + 1) (umax_of k)).
(** endian_types.rs:46-51 *)
Definition uint_sat_sub (le : bool) (k : nat) (a b : bytes) : bytes := uint_new le k (uint_get le a - uint_get le b).
Definition uint_sat_add (le : bool) (k : nat) (a b : bytes) : bytes :=
  uint_new le k (N.min (uint_get le a + uint_get le b) (umax_of k)).
(** endian_types.rs:54-58 *)
Definition uint_cmp (le : bool) (a b : bytes) : comparison := N.compare (uint_get le a) (uint_get le b).
(** endian_types.rs:97-107 *)
Definition uint_display (le : bool) (b : bytes) : bytes := to_string (uint_get le b).
Definition uint_parse (le : bool) (k : nat) (t : bytes) : option bytes :=
  match parse_uint k t with Some v => Some (uint_new le k v) | None => None end.
(** endian_types.rs:113-137 *)
Definition map2 (f : N -> N -> N) (a b : bytes) : bytes := map (fun '(x, y) => f x y) (combine a b).
Definition uint_and := map2 N.land.
Definition uint_or := map2 N.lor.
Definition uint_not (b : bytes) : bytes := map (fun x => 255 - x) b.
(** endian_types.rs:144-149 [to_abe]; the name is the lower case name of the type. *)
Definition uint_name (le : bool) (k : nat) : bytes :=
  (if le then str "lu" else str "u") ++ to_string (8 * N.of_nat k).
Definition uint_to_abe (le : bool) (k : nat) (b : bytes) : ABE :=
  ALst [ABytes (uint_name le k); ACtr CColon; ABytes (uint_display le b)].
(** endian_types.rs:195-208 and 236-252 from and to evaluated bytes *)
Definition uint_of_bytes (le : bool) (k : nat) (b : bytes) : outcome FitSliceErr bytes :=
  if le then fit_front (N.of_nat k) b else fit (N.of_nat k) b.
Definition uint_to_bytes (le : bool) (b : bytes) : bytes := if le then cut_ending_nulls2 b else b.
