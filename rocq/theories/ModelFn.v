(** The functions and macros of the core scope: crates/abe/src/scope/{bytes,uint,base,comment,help,
    logic,encode}.rs, crates/core/src/{eval,stamp_fmt}.rs, crates/pkt/src/{stamp,space_fmt}.rs, and
    the text of spaces. *)
From Verif Require Export Bytes ModelAbe ModelFmt ModelSpace ModelEval.

(** Values the functions take from elsewhere: the hashes of two packets, the clock, the text of
    [help], lossy UTF-8 and the float based printing of stamps. *)
Record oracle := {
  o_public : bytes; o_test : bytes; o_now : N;
  o_help : list bytes -> bytes; o_lossy : bytes -> bytes; o_stamp : bytes -> N -> bytes }.

Definition val (b : bytes) : ar := Ok (Some b).
Definition fails : ar := Err tt.
Definition of_opt (o : option bytes) : ar := match o with Some b => val b | None => fails end.
Definition of_out {E} (o : outcome E bytes) : ar :=
  match o with Ok b => val b | Err _ => fails | Panic => Panic | OutOfFuel => OutOfFuel end.
Definition arg (i : nat) (inp : list bytes) : bytes := nth i inp [].
(** [usize]: 64 bit *)
Definition parse_usize (t : bytes) : option N := parse_uint 8 t.

(** ** bytes.rs *)
(** bytes.rs:19-65 [pad]. A length above isize::MAX is the capacity overflow of [vec!]. *)
Definition pad (inp : list bytes) (left : bool) (default_pad : N) (check_len fixed : bool) : ar :=
  let b0 := arg 0 inp in
  match match inp with _ :: l :: _ => match l with [] => Some 16 | _ => parse_usize l end | _ => Some 16 end with
  | None => fails
  | Some len =>
      let b := if negb fixed then b0
               else let nlen := N.min len (lenN b0) in if left then takeN nlen b0 else dropN (lenN b0 - nlen) b0 in
      if len <? lenN b then (if check_len then fails else val b)
      else match match nth_error inp 2 with None => Some default_pad | Some [p] => Some p | Some _ => None end with
           | None => fails
           | Some p =>
               if 2 ^ 63 <=? len then Panic
               else let fill := repeat p (N.to_nat (len - lenN b)) in
                    val (if left then fill ++ b else b ++ fill)
           end
  end.
(** bytes.rs:67-88 [cut] *)
Definition cut (inp : list bytes) (left check_len : bool) : ar :=
  let b := arg 0 inp in
  match match inp with _ :: l :: _ => parse_usize l | _ => Some 16 end with
  | None => fails
  | Some len =>
      if lenN b <? len then (if check_len then fails else val b)
      else val (if left then takeN len b else dropN (lenN b - len) b)
  end.
(** bytes.rs:89-97 *)
Definition encode_a (b : bytes) (_ : list ABE) : ar :=
  let cut_b := as_abtxt (cut_prefix_nulls b) in
  val (if lenN b =? 16 then str "[a:" ++ cut_b ++ str "]"
       else str "[a:" ++ cut_b ++ str ":" ++ to_string (lenN b) ++ str "]").
(** bytes.rs:127-142 [replace]: the loop runs until nothing is left, so it is bounded by fuel. *)
Fixpoint replace_loop (fuel : nat) (b from to r : bytes) : outcome unit bytes :=
  match fuel, b with
  | O, [] => Ok r
  | O, _ => OutOfFuel
  | S _, [] => Ok r
  | S f, h :: rest =>
      if starts_with b from then replace_loop f (dropN (lenN from) b) from to (r ++ to)
      else replace_loop f rest from to (r ++ [h])
  end.
Definition replace (b from to : bytes) : outcome unit bytes := replace_loop (List.length b) b from to [].
(** bytes.rs:144-202 [slice]. Integers of 64 bit; [as isize] and the arithmetic wrap. *)
Definition wrap64 (z : Z) : Z := ((z + 2 ^ 63) mod 2 ^ 64 - 2 ^ 63)%Z.
Definition clampz (lo hi z : Z) : Z := Z.max lo (Z.min hi z).
Definition parse_signed (o : option bytes) : option (option (bool * N)) :=
  match o with
  | None | Some [] => Some None
  | Some (45 :: r) => match parse_usize r with Some v => Some (Some (true, v)) | None => None end
  | Some b => match parse_usize b with Some v => Some (Some (false, v)) | None => None end
  end.
Definition to_bound (len sb eb : Z) (v : option (bool * N)) (default : Z) : Z :=
  match v with
  | Some (false, v) => clampz (Z.min sb eb) (Z.max sb eb) (wrap64 (Z.of_N v))
  | Some (true, v) => clampz (Z.min sb eb) (Z.max sb eb) (wrap64 (len - wrap64 (Z.of_N v)))
  | None => default
  end%Z.
(** One step of the iterator gives an element, so the elements bound their number. [i as usize] of
    a negative number is above every index. *)
Fixpoint slice_loop (fuel : nat) (b : bytes) (i stop step : Z) : bytes :=
  match fuel with
  | O => []
  | S f =>
      let in_range := if (step >=? 0)%Z then (i <? stop)%Z else (i >? stop)%Z in
      if negb in_range || (step =? 0)%Z then []
      else if (i <? 0)%Z then []
      else match nth_error b (Z.to_nat i) with
           | None => []
           | Some x => x :: slice_loop f b (wrap64 (i + step)) stop step
           end
  end.
Definition slice (b : bytes) (args : list bytes) : option bytes :=
  let len := Z.of_N (lenN b) in
  match parse_signed (nth_error args 0), parse_signed (nth_error args 1),
        match nth_error args 2 with None => Some 1%Z | Some t => parse_isize t end with
  | Some start, Some stop, Some step =>
      let sb := (if step >=? 0 then 0 else len - 1)%Z in
      let eb := (if step >=? 0 then len else -1)%Z in
      Some (slice_loop (S (List.length b)) b (to_bound len sb eb start sb) (to_bound len sb eb stop eb) step)
  | _, _, _ => None
  end.

Definition fn (id : bytes) (lo hi : N) (f : list bytes -> ar) : sfunc :=
  {| f_id := id; f_init := None; f_lo := lo; f_hi := hi; f_apply := fun _ i _ => f i; f_enc := None |}.
Definition fn_enc (id : bytes) (lo hi : N) (f : list bytes -> ar) (e : bytes -> list ABE -> ar) : sfunc :=
  {| f_id := id; f_init := None; f_lo := lo; f_hi := hi; f_apply := fun _ i _ => f i; f_enc := Some e |}.

(** bytes.rs:99-125 *)
Definition bytes_fe (o : oracle) : list sfunc := [
  fn (str "?a") 1 1 (fun i => val (as_abtxt (arg 0 i)));
  fn (str "?a0") 1 1 (fun i => val (as_abtxt (cut_prefix_nulls (arg 0 i))));
  fn_enc (str "a") 1 3 (fun i => pad i true 0 true false) encode_a;
  fn (str "f") 1 3 (fun i => pad i true 255 true false);
  fn (str "lpad") 1 3 (fun i => pad i true 0 true false);
  fn (str "rpad") 1 3 (fun i => pad i false 0 true false);
  fn (str "~lpad") 1 3 (fun i => pad i true 0 false false);
  fn (str "~rpad") 1 3 (fun i => pad i false 0 false false);
  fn (str "lcut") 1 2 (fun i => cut i true true);
  fn (str "rcut") 1 2 (fun i => cut i false true);
  fn (str "~lcut") 1 2 (fun i => cut i true false);
  fn (str "~rcut") 1 2 (fun i => cut i false false);
  fn (str "lfixed") 1 3 (fun i => pad i true 0 false true);
  fn (str "rfixed") 1 3 (fun i => pad i false 0 false true);
  fn (str "replace") 3 3 (fun i => of_out (replace (arg 0 i) (arg 1 i) (arg 2 i)));
  fn (str "slice") 1 4 (fun i => of_opt (slice (arg 0 i) (tl i)));
  fn (str "~utf8") 1 1 (fun i => val (o_lossy o (arg 0 i))) ].

(** ** uint.rs *)
(** uint.rs:16-45 [carry_add_be], [carry_sub_be]: from the last byte to the first; on empty slices
    the index underflows. The result is the bytes and the carry. *)
Fixpoint carry_add (a b : bytes) : bytes * bool :=
  match a, b with
  | x :: a', y :: b' =>
      let '(r, c) := carry_add a' b' in
      let s := x + y + (if c : bool then 1 else 0) in (s mod 256 :: r, 256 <=? s)
  | _, _ => ([], false)
  end.
Fixpoint carry_sub (a b : bytes) : bytes * bool :=
  match a, b with
  | x :: a', y :: b' =>
      let '(r, c) := carry_sub a' b' in
      let y' := y + (if c : bool then 1 else 0) in
      (((x + 256 - y') mod 256) :: r, x <? y')
  | _, _ => ([], false)
  end.
Definition carry_add_be (a b : bytes) : outcome unit (bytes * bool) := match a with [] => Panic | _ => Ok (carry_add a b) end.
Definition carry_sub_be (a b : bytes) : outcome unit (bytes * bool) := match a with [] => Panic | _ => Ok (carry_sub a b) end.
(** uint.rs:55-81 *)
Fixpoint sat_fold (op : bytes -> bytes -> outcome unit (bytes * bool)) (full : N) (r : bytes) (is : list bytes) : ar :=
  match is with
  | [] => val r
  | i :: rest =>
      match op r i with
      | Ok (r', carry) => if (carry : bool) then val (repeat full (List.length r')) else sat_fold op full r' rest
      | Err _ => fails | Panic => Panic | OutOfFuel => OutOfFuel
      end
  end.
Definition sat_op (op : bytes -> bytes -> outcome unit (bytes * bool)) (full : N) (inp : list bytes) : ar :=
  if forallb (fun v => lenN v =? lenN (arg 0 inp)) inp then sat_fold op full (arg 0 inp) (tl inp) else fails.
(** uint.rs:82-124 *)
Definition parse_be (k : nat) (i : list bytes) : ar := match parse_uint k (arg 0 i) with Some v => val (be_encode k v) | None => fails end.
Definition parse_le (k : nat) (i : list bytes) : ar := match parse_uint k (arg 0 i) with Some v => val (rev (be_encode k v)) | None => fails end.
Definition encode_be (id : bytes) (k : nat) (b : bytes) (_ : list ABE) : ar :=
  if lenN b =? N.of_nat k then val (str "[" ++ id ++ str ":" ++ to_string (be_decode b) ++ str "]") else Ok None.
Definition print_be (i : list bytes) : ar := if 16 <? lenN (arg 0 i) then fails else val (to_string (be_decode (arg 0 i))).
Definition print_le (i : list bytes) : ar := if 16 <? lenN (arg 0 i) then fails else val (to_string (be_decode (rev (arg 0 i)))).
Definition uint_fe : list sfunc := [
  fn (str "+") 1 16 (sat_op carry_add_be 255);
  fn (str "-") 1 16 (sat_op carry_sub_be 0);
  fn_enc (str "u8") 1 1 (parse_be 1) (encode_be (str "u8") 1);
  fn_enc (str "u16") 1 1 (parse_be 2) (encode_be (str "u16") 2);
  fn_enc (str "u32") 1 1 (parse_be 4) (encode_be (str "u32") 4);
  fn_enc (str "u64") 1 1 (parse_be 8) (encode_be (str "u64") 8);
  fn_enc (str "u128") 1 1 (parse_be 16) (encode_be (str "u128") 16);
  fn (str "?u") 1 1 print_be;
  fn (str "lu") 1 1 (fun i => match parse_uint 16 (arg 0 i) with Some v => val (cut_ending_nulls2 (rev (be_encode 16 v))) | None => fails end);
  fn (str "lu8") 1 1 (parse_le 1);
  fn (str "lu16") 1 1 (parse_le 2);
  fn (str "lu32") 1 1 (parse_le 4);
  fn (str "lu64") 1 1 (parse_le 8);
  fn (str "lu128") 1 1 (parse_le 16);
  fn (str "?lu") 1 1 print_le ].

(** ** base.rs *)
(** base.rs:12-21 [bin] *)
Definition bin (i : list bytes) (radix : N) : ar :=
  match parse_radix (umax_of 16) radix (arg 0 i) with
  | None => fails
  | Some v => val (if v =? 0 then [0] else cut_prefix_nulls (be_encode 16 v))
  end.
(** base.rs:24-52 [enc_bin]: the digits of each byte, [width] of them, upper case *)
Definition digit_char (d : N) : N := if d <? 10 then 48 + d else 55 + d.
Fixpoint digits_of (radix : N) (width : nat) (v : N) : bytes :=
  match width with O => [] | S w => digits_of radix w (v / radix) ++ [digit_char (v mod radix)] end.
Fixpoint len_set (opts : list ABE) : option (list N) :=
  match opts with
  | [] => Some []
  | ABytes t :: r => match parse_usize t, len_set r with Some v, Some l => Some (v :: l) | _, _ => None end
  | _ => None
  end.
Definition enc_bin (radix : N) (width : nat) (b : bytes) (opts : list ABE) : ar :=
  match len_set opts with
  | None => fails
  | Some ls =>
      if negb match ls with [] => true | _ => false end && negb (existsb (N.eqb (lenN b)) ls) then Ok None
      else val (str "[b" ++ to_string radix ++ str ":" ++ flat_map (digits_of radix width) b ++ str "]")
  end.
(** base.rs:71-85: the first option equal to the length; one that is no number is an error. *)
Fixpoint enc_b_opts (b : bytes) (opts : list ABE) : ar :=
  match opts with
  | [] => Ok None
  | ABytes t :: r =>
      match parse_uint 4 t with
      | None => fails
      | Some len => if len =? lenN b then val (str "[b:" ++ base64 b ++ str "]") else enc_b_opts b r
      end
  | _ :: r => enc_b_opts b r
  end.
Definition enc_b (b : bytes) (opts : list ABE) : ar :=
  match opts with [] => val (str "[b:" ++ base64 b ++ str "]") | _ => enc_b_opts b opts end.
(** base.rs:86-93; the standard alphabet has a slash, which is escaped. *)
Definition enc_bs (b : bytes) (_ : list ABE) : ar :=
  val (str "[bs:" ++ flat_map (fun c => if c =? 47 then [92; 47] else [c]) (base64_std b) ++ str "]").
Definition base_fe : list sfunc := [
  fn_enc (str "b2") 1 1 (fun i => bin i 2) (enc_bin 2 8);
  fn (str "b8") 1 1 (fun i => bin i 8);
  fn_enc (str "b16") 1 1 (fun i => bin i 16) (enc_bin 16 2);
  fn (str "?b") 1 1 (fun i => val (base64 (arg 0 i)));
  fn (str "2mini") 1 1 (fun i => val (mini_b64 (arg 0 i)));
  fn_enc (str "b") 1 1 (fun i => of_opt (base64_decode (arg 0 i))) enc_b;
  fn (str "?bs") 1 1 (fun i => val (base64_std (arg 0 i)));
  fn_enc (str "bs") 1 1 (fun i => of_opt (base64_std_decode (arg 0 i))) enc_bs ].

(** ** comment.rs, help.rs, logic.rs *)
Definition comment_fe : list sfunc := [ fn (str "C") 1 16 (fun _ => val []) ].
Definition help_fe (o : oracle) : list sfunc := [ fn (str "help") 0 16 (fun i => val (o_help o i)) ].
Definition help_m (o : oracle) : list (bytes * (context -> list ABE -> ar)) := [ (str "help", fun _ _ => val (o_help o [])) ].
(** logic.rs:17-55 *)
Definition size_test (i : list bytes) : ar :=
  match parse_usize (arg 2 i) with
  | None => fails
  | Some n => if beqb (arg 1 i) (str "=") then (if lenN (arg 0 i) =? n then val (arg 0 i) else fails) else fails
  end.
Definition val_test (i : list bytes) : ar :=
  if beqb (arg 1 i) (str "=") then (if beqb (arg 0 i) (arg 2 i) then val (arg 0 i) else fails) else fails.
Definition logic_fe : list sfunc := [ fn (str "size?") 3 3 size_test; fn (str "val?") 3 3 val_test ].
(** logic.rs:56-73 [or]; panics and endless evaluations are not caught. *)
Fixpoint or_loop (ctx : context) (ps : list (list ABE)) : ar :=
  match ps with
  | [] => fails
  | p :: r => match c_eval ctx p with Ok l => val (abl_concat l) | Err _ => or_loop ctx r | Panic => Panic | OutOfFuel => OutOfFuel end
  end.
Definition or_macro (ctx : context) (l : list ABE) : ar :=
  match split_on (abe_is CColon) l with [] :: ps => or_loop ctx ps | _ => fails end.

(** ** encode.rs *)
Definition of_eval (r : outcome EvalError ABList) : ar :=
  match r with Ok l => val (abl_concat l) | Err _ => fails | Panic => Panic | OutOfFuel => OutOfFuel end.
Definition fn_ctx (id : bytes) (init : option bool) (lo hi : N) (f : context -> list bytes -> bool -> ar) : sfunc :=
  {| f_id := id; f_init := init; f_lo := lo; f_hi := hi; f_apply := f; f_enc := None |}.
(** encode.rs:36-40 *)
Definition eval_fn (ctx : context) (i : list bytes) (_ : bool) : ar :=
  match parse_abe_strict (arg 0 i) with Ok l => of_eval (c_eval ctx l) | Err _ => fails | Panic => Panic | OutOfFuel => OutOfFuel end.
(** encode.rs:9-15 and 50-57. Options that are no UTF-8 are an error of the parser too. *)
Definition encode_arg (ctx : context) (i : list bytes) : outcome EncodeError bytes :=
  if 2 <? lenN i then Err OptionError else encode (c_enc ctx) (arg 0 i) (arg 1 i) false.
Definition strip_brackets (t : bytes) : option bytes :=
  match t with 91 :: r => match rev r with 93 :: v => Some (rev v) | _ => None end | _ => None end.
Fixpoint after_colon (t : bytes) : bytes := match t with [] => [] | c :: r => if c =? 58 then r else after_colon r end.
Definition encode_fe : list sfunc := [
  fn_ctx (str "eval") None 1 1 eval_fn;
  fn_ctx (str "?") None 2 8 (fun ctx i _ => of_out (encode_arg ctx i));
  fn_ctx (str "??") None 2 8 (fun ctx i _ => of_out (obind (encode_arg ctx i) (fun r =>
    Ok match strip_brackets r with Some v => v | None => r end)));
  fn_ctx (str "???") None 2 8 (fun ctx i _ => of_out (obind (encode_arg ctx i) (fun r =>
    Ok match strip_brackets r with Some v => after_colon v | None => r end))) ].
(** encode.rs:102-138 *)
Fixpoint after_fslash (l : list ABE) : list ABE := match l with [] => [] | e :: r => if abe_is CFSlash e then r else after_fslash r end.
Definition encode_macro (ignore : bool) (ctx : context) (l : list ABE) : ar :=
  match l with
  | ACtr CColon :: abe =>
      match c_eval ctx (hd [] (split_on (abe_is CFSlash) abe)) with
      | Ok v => of_out (encode_abe (c_enc ctx) (abl_concat v) (after_fslash abe) ignore)
      | Err _ => fails | Panic => Panic | OutOfFuel => OutOfFuel
      end
  | _ => fails
  end.
Definition e_macro (ctx : context) (l : list ABE) : ar := match l with ACtr CColon :: abe => of_eval (c_eval ctx abe) | _ => fails end.
Definition encode_m : list (bytes * (context -> list ABE -> ar)) :=
  [ (str "?", encode_macro false); (str "~?", encode_macro true); (str "e", e_macro) ].

(** scope/mod.rs:28-37 *)
Definition basic_scope (o : oracle) : scope :=
  spair (spair (spair (escope (bytes_fe o) []) (escope uint_fe [])) (escope base_fe []))
        (spair (spair (spair (escope comment_fe []) (escope (help_fe o) (help_m o))) (escope logic_fe [(str "or", or_macro)]))
               (escope encode_fe encode_m)).

(** ** Groups by name, core/src/eval.rs:31-92 *)
Definition PRIVATE_GROUP : bytes := repeat 0 32.
Definition hash_fn (o : oracle) (i : list bytes) : ar :=
  if beqb (arg 0 i) (str "0") then val PRIVATE_GROUP
  else if beqb (arg 0 i) (str "pub") then val (o_public o)
  else if beqb (arg 0 i) (str "test") then val (o_test o) else Ok None.
Definition hash_enc (o : oracle) (b : bytes) (_ : list ABE) : ar :=
  if negb (lenN b =? 32) then Ok None
  else if beqb b PRIVATE_GROUP then val (str "[#:0]")
  else if beqb b (o_public o) then val (str "[#:pub]")
  else if beqb b (o_test o) then val (str "[#:test]") else Ok None.
Definition at_fn (i : list bytes) : ar := if beqb (arg 0 i) (str "none") then val PRIVATE_GROUP else Ok None.
Definition at_enc (b : bytes) (_ : list ABE) : ar := if beqb b PRIVATE_GROUP then val (str "[@:none]") else Ok None.
Definition static_lns (o : oracle) : list sfunc := [
  {| f_id := str "#"; f_init := Some true; f_lo := 1; f_hi := 16; f_apply := fun _ i _ => hash_fn o i; f_enc := Some (hash_enc o) |};
  {| f_id := str "@"; f_init := Some true; f_lo := 1; f_hi := 16; f_apply := fun _ i _ => at_fn i; f_enc := Some at_enc |} ].

(** ** Stamps, core/src/stamp_fmt.rs:53-96, 228-312 and pkt/src/stamp.rs:55-76 *)
(** Durations are microseconds. [Duration] counts seconds in 64 bit: nine units of at most 2^32 fit. *)
Definition DELTA_FORMATS : list (N * N) :=
  [ (89, 31557600000000); (77, 2592000000000); (87, 604800000000); (68, 86400000000); (104, 3600000000);
    (109, 60000000); (115, 1000000); (108, 1000); (117, 1) ].
Definition is_alpha (c : N) : bool := ((65 <=? c) && (c <=? 90)) || ((97 <=? c) && (c <=? 122)).
(** [split_inclusive] at letters: the last piece may lack one. *)
Fixpoint split_inclusive (cur t : bytes) : list bytes :=
  match t with
  | [] => match cur with [] => [] | _ => [cur] end
  | c :: r => if is_alpha c then (cur ++ [c]) :: split_inclusive [] r else split_inclusive (cur ++ [c]) r
  end.
(** core::str::from_utf8 *)
Definition cont (c : N) : bool := (128 <=? c) && (c <=? 191).
Fixpoint is_utf8 (t : bytes) : bool :=
  match t with
  | [] => true
  | c :: r =>
      if c <? 128 then is_utf8 r
      else if (194 <=? c) && (c <=? 223) then match r with x :: r' => cont x && is_utf8 r' | _ => false end
      else if (224 <=? c) && (c <=? 239) then
        match r with
        | x :: y :: r' => cont x && cont y && negb ((c =? 224) && (x <? 160)) && negb ((c =? 237) && (159 <? x)) && is_utf8 r'
        | _ => false
        end
      else if (240 <=? c) && (c <=? 244) then
        match r with
        | x :: y :: z :: r' => cont x && cont y && cont z && negb ((c =? 240) && (x <? 144)) && negb ((c =? 244) && (143 <? x)) && is_utf8 r'
        | _ => false
        end
      else false
  end.
Fixpoint skip_to (unit : N) (fmts : list (N * N)) : option (N * list (N * N)) :=
  match fmts with [] => None | (c, v) :: r => if c =? unit then Some (v, r) else skip_to unit r end.
(** stamp_fmt.rs:77-96: [from_utf8(digits).unwrap()] panics before the number is read. *)
Fixpoint parse_segments (segs : list bytes) (fmts : list (N * N)) (dur : N) : outcome unit N :=
  match segs with
  | [] => Ok dur
  | s :: r =>
      let digits := removelast s in
      if negb (is_utf8 digits) then Panic
      else match parse_uint 4 digits with
           | None => Err tt
           | Some count =>
               match skip_to (last s 0) fmts with
               | None => Err tt
               | Some (v, fmts') => parse_segments r fmts' (dur + v * count)
               end
           end
  end.
Definition parse_duration_str (t : bytes) : outcome unit N := parse_segments (split_inclusive [] t) DELTA_FORMATS 0.
Definition MAX_STAMP : N := 2 ^ 64 - 1.
(** stamp.rs:55-76 *)
Definition stamp_add (s d : N) : N := N.min (s + N.min d MAX_STAMP) MAX_STAMP.
Definition checked_stamp_add (s d : N) : option N := let v := s + N.min d MAX_STAMP in if MAX_STAMP <? v then None else Some v.
Definition stamp_sub (s d : N) : N := s - N.min d MAX_STAMP.
Definition checked_stamp_sub (s d : N) : option N := if s <? N.min d MAX_STAMP then None else Some (s - N.min d MAX_STAMP).
(** stamp_fmt.rs:233-291 [apply] *)
Definition is_stamp_fmt (t : bytes) : bool :=
  existsb (beqb t) [str "ticks"; str "val"; str "delta"; str "str"].
Fixpoint stamp_apply (o : oracle) (stamp : N) (args : list bytes) : ar :=
  match args with
  | [] => val (be_encode 8 stamp)
  | a :: rest =>
      let dur t k := match parse_duration_str t with Ok d => k d | Err _ => fails | Panic => Panic | OutOfFuel => OutOfFuel end in
      match a with
      | [] => stamp_apply o stamp rest
      | 43 :: 43 :: r => dur r (fun d => stamp_apply o (match checked_stamp_add stamp d with Some v => v | None => MAX_STAMP end) rest)
      | 43 :: r => dur r (fun d => match checked_stamp_add stamp d with Some v => stamp_apply o v rest | None => fails end)
      | 45 :: 45 :: r => dur r (fun d => stamp_apply o (match checked_stamp_sub stamp d with Some v => v | None => 0 end) rest)
      | 45 :: r => dur r (fun d => match checked_stamp_sub stamp d with Some v => stamp_apply o v rest | None => fails end)
      | _ => if is_stamp_fmt a then match rest with [] => val (o_stamp o a stamp) | _ => fails end else fails
      end
  end.
(** stamp_fmt.rs:303-311 *)
Definition stamp_fe (o : oracle) : list sfunc := [
  fn_ctx (str "us") None 0 16 (fun _ i init =>
    if (init : bool) then stamp_apply o 0 i
    else match uint_of_bytes false 8 (arg 0 i) with Ok b => stamp_apply o (be_decode b) (tl i) | _ => fails end);
  fn_ctx (str "now") (Some true) 0 16 (fun _ i _ => stamp_apply o (o_now o) i);
  fn_ctx (str "epoch") (Some true) 0 16 (fun _ i _ => stamp_apply o 0 i);
  fn_ctx (str "us++") (Some true) 0 16 (fun _ i _ => stamp_apply o MAX_STAMP i) ].

(** ** Spaces, pkt/src/space_fmt.rs *)
(** space_fmt.rs:129-142 *)
Definition fmt_segm2 (c : bytes) : bytes :=
  if lenN c =? 32 then str "/[b:" ++ b64_display c ++ str "]"
  else if lenN c =? 16 then
    (if existsb escaped_byte c then str "/" ++ ab_to_abe_str c else str "/" ++ as_abtxt c)
  else str "/" ++ ab_display c.
(** space_fmt.rs:160-167 *)
Definition space_display (sp : space) : outcome SpaceError bytes := obind (components sp) (fun cs => Ok (flat_map fmt_segm2 cs)).
(** space_fmt.rs:144-158 [to_abe] *)
Definition space_to_abe (sp : space) : outcome SpaceError (list ABE) :=
  obind (components sp) (fun cs => Ok (flat_map (fun c =>
    [ACtr CFSlash; if lenN c =? 32 then b64_to_abe c else if lenN c =? 16 then ab_to_abe c else ABytes c]) cs)).
(** space_fmt.rs:63-90 [try_from_ablist] *)
Fixpoint fslash_parts (l : ABList) : option (list bytes) :=
  match l with
  | [] => Some []
  | (Some CFSlash, b) :: r =>
      match fslash_parts r with Some cs => Some (match b with [] => cs | _ => b :: cs end) | None => None end
  | _ => None
  end.
Definition space_from_ablist (l : ABList) : outcome unit space :=
  let sp {E} (x : outcome E space) : outcome unit space := match x with Ok v => Ok v | Err _ => Err tt | Panic => Panic | OutOfFuel => OutOfFuel end in
  match l with
  | [] => Ok []
  | (c, b) :: r =>
      let l' := if negb (match c with Some CFSlash => true | _ => false end) && match b with [] => true | _ => false end then r else l in
      match as_exact_bytes l' with
      | Some b => sp (space_from_slice b)
      | None => match fslash_parts l' with Some cs => sp (try_from_iter cs) | None => Err tt end
      end
  end.
(** space_fmt.rs:98-110 [check] *)
Fixpoint space_check_loop (l : list ABE) : bool :=
  match l with
  | [] => true
  | c :: v :: r => abe_is CFSlash c && is_expr v && space_check_loop r
  | [_] => false
  end.
Definition space_check (l : list ABE) : bool := match l with [e] => is_expr e | _ => space_check_loop l end.
(** space_fmt.rs:112-129 [space_str] and [FromStr], convert.rs:69-72, 129-138 *)
Definition space_str (fuel : nat) (o : oracle) (t : bytes) : outcome unit space :=
  match parse_abe_strict t with
  | Ok l =>
      if space_check l then
        match eval fuel (basic_scope o) l with Ok abl => space_from_ablist abl | Err _ => Err tt | Panic => Panic | OutOfFuel => OutOfFuel end
      else Err tt
  | Err _ => Err tt | Panic => Panic | OutOfFuel => OutOfFuel
  end.
(** space_fmt.rs:313-327 and 340-347; [start + 1] of the largest usize overflows, the sum is then
    raised to 9 anyway. *)
Definition si_range (i : list bytes) : option (N * N) :=
  match parse_usize (arg 1 i), match nth_error i 2 with None => Some None | Some t => match parse_usize t with Some v => Some (Some v) | None => None end end with
  | Some s, Some oe =>
      let e := N.max (match oe with Some e => e | None => s + 1 end) 9 in
      if 8 <? s then None else if e <? s then None else Some (s, e)
  | _, _ => None
  end.
Definition si_fn (i : list bytes) : ar :=
  match space_from_slice (arg 0 i) with
  | Ok sp =>
      match try_into_rooted sp with
      | Ok rs => match si_range i with Some (s, e) => of_out (rs_range rs s e) | None => fails end
      | _ => Panic
      end
  | Err _ => fails | Panic => Panic | OutOfFuel => OutOfFuel
  end.
Definition encode_sp (b : bytes) (_ : list ABE) : ar :=
  match space_from_slice b with
  | Ok sp => of_out (obind (space_display sp) (fun t => Ok (str "[/" ++ t ++ str "]")))
  | Err _ => Ok None | Panic => Panic | OutOfFuel => OutOfFuel
  end.
Definition space_fe : list sfunc := [
  fn (str "?space") 1 1 (fun i => match space_from_slice (arg 0 i) with Ok sp => of_out (space_display sp) | Err _ => fails | Panic => Panic | OutOfFuel => OutOfFuel end);
  fn (str "si") 2 3 si_fn;
  fn_enc (str "s") 1 8 (fun i => of_out (try_from_iter i)) encode_sp ].
(** space_fmt.rs:355-376 *)
Definition space_macro (drop_empty : bool) (ctx : context) (l : list ABE) : ar :=
  match c_eval ctx l with
  | Ok abl => of_out (space_from_ablist (if drop_empty then filter (fun v => match snd v with [] => false | _ => true end) abl else abl))
  | Err _ => fails | Panic => Panic | OutOfFuel => OutOfFuel
  end.
Definition space_m : list (bytes * (context -> list ABE -> ar)) := [ ([], space_macro false); (str "~", space_macro true) ].

(** core/src/eval.rs:17-28 *)
Definition core_scope (o : oracle) : scope :=
  spair (spair (basic_scope o) (escope (static_lns o) [])) (spair (escope (stamp_fe o) []) (escope space_fe space_m)).
