(** Model of the predicate sets on unsigned integers:
    crates/core/src/predicate/{value_test,uint,test_pkt,bitset_test}.rs.

    An unsigned integer type is its number of bits [w] (8, 16, 32, 64, 128, 256 or 512);
    its values are the numbers below [2^w].  The native types, ruint's U256/U512 and the
    byte arrays AB<[u8;16]> and B64<[u8;32]> (compared as big-endian numbers,
    uint.rs:198-328) are all modelled this way.  [debug_assert!] is not modelled (release
    build); [unreachable!] is [Panic]. *)
From Verif Require Import Bytes.

Inductive TestErr := EIncompatible.

(** uint.rs:10-47 and its implementations 49-108, 198-402. *)
Definition umax (w : N) : N := N.ones w.
Definition unot (w a : N) : N := N.lnot a w.
Definition inc (w a : N) : option N := if a + 1 <? 2 ^ w then Some (a + 1) else None.
Definition decr (w a : N) : option N := if a =? 0 then None else Some (a - 1).
Definition overflowing_shl (w a r : N) : N * bool :=
  (N.land (N.shiftl a (r mod w)) (N.ones w), w <=? r).
Definition overflowing_shr (w a r : N) : N * bool := (N.shiftr a (r mod w), w <=? r).
Definition overflowing_add (w a b : N) : N * bool := ((a + b) mod 2 ^ w, 2 ^ w <=? a + b).
Definition leading_zeros (w a : N) : N := w - N.size a.
Fixpoint trailing_ones_from (n : nat) (i a : N) : N :=
  match n with
  | O => i
  | S n' => if N.testbit a i then trailing_ones_from n' (i + 1) a else i
  end.
Definition trailing_ones (w a : N) : N := trailing_ones_from (N.to_nat w) 0 a.
(** u32 [wrapping_sub]. *)
Definition wrapping_sub32 (a b : N) : N := (a + 2 ^ 32 - b) mod 2 ^ 32.

(** value_test.rs:155-176: the six operators and their test of a value [a] against the
    operand [b]. *)
Inductive TestOp := Nop | Equal | Less | Greater | Mask0 | Mask1.
Definition uint_func (op : TestOp) (a b : N) : bool :=
  match op with
  | Nop => true
  | Equal => a =? b
  | Less => a <? b
  | Greater => b <? a
  | Mask0 => N.lor a b =? b
  | Mask1 => N.land a b =? b
  end.
(** :98-109 [into_byte], [from_byte]. *)
Definition op_byte (op : TestOp) : N :=
  match op with Nop => 63 | Equal => 61 | Less => 60 | Greater => 62 | Mask0 => 48 | Mask1 => 49 end.
Definition op_of_byte (b : N) : option TestOp :=
  if b =? 63 then Some Nop else if b =? 61 then Some Equal else if b =? 60 then Some Less
  else if b =? 62 then Some Greater else if b =? 48 then Some Mask0 else if b =? 49 then Some Mask1 else None.

(** :184-188 *)
Record SetValueInfo := mkInfo { in_set : bool; sval : option N }.

(** :204-223 *)
Record Bound := mkBound { low : N; high : N }.
Definition bound_default (w : N) : Bound := mkBound 0 (umax w).
Definition bound_empty (w : N) : Bound := mkBound (umax w) 0.
(** :235-252 *)
Definition less (w : N) (b : Bound) : option N := inc w (high b).
Definition greater (w : N) (b : Bound) : option N := decr w (low b).
Definition bound_as_eq (b : Bound) : option N := if high b =? low b then Some (high b) else None.
Definition opt_list {A} (o : option A) : list A := match o with Some a => [a] | None => [] end.
(** :253-266 [iter]. *)
Definition bound_iter (w : N) (b : Bound) : list (TestOp * N) :=
  match bound_as_eq b with
  | Some v => [(Equal, v)]
  | None => map (pair Less) (opt_list (less w b)) ++ map (pair Greater) (opt_list (greater w b))
  end.
(** :267-270 *)
Definition bound_test (b : Bound) (v : N) : bool := (v <=? high b) && (low b <=? v).
(** :271-280 *)
Definition bound_cmp (b : Bound) (i : N) : outcome TestErr comparison :=
  match i ?= low b, i ?= high b with
  | Lt, Lt => Ok Lt
  | Gt, Gt => Ok Gt
  | Lt, Gt => Panic
  | _, _ => Ok Eq
  end.
(** :475-503 *)
Definition bound_has_any (b : Bound) : bool := low b <=? high b.
Definition bound_add (w : N) (b : Bound) (op : TestOp) (rh : N) : Bound :=
  match op with
  | Equal => mkBound (N.max (low b) rh) (N.min (high b) rh)
  | Less => match decr w rh with Some v => mkBound (low b) (N.min (high b) v) | None => bound_empty w end
  | Greater => match inc w rh with Some v => mkBound (N.max (low b) v) (high b) | None => bound_empty w end
  | _ => b
  end.
Definition bound_try_add (w : N) (b : Bound) (op : TestOp) (rh : N) : outcome TestErr Bound :=
  let b' := bound_add w b op rh in if bound_has_any b' then Ok b' else Err EIncompatible.
(** :654-663 [try_combine]. *)
Definition bound_try_combine (a b : Bound) : outcome TestErr Bound :=
  if negb (low b <=? high a) then Err EIncompatible
  else Ok (mkBound (N.max (low a) (low b)) (N.min (high a) (high b))).

(** :404-410, 289-335 *)
Record Mask := mkMask { ones : N; zeros : N }.
Definition mask_default (w : N) : Mask := mkMask 0 (umax w).
Definition mask_has_any (m : Mask) : bool := N.land (zeros m) (ones m) =? ones m.
Definition mask_add (m : Mask) (op : TestOp) (v : N) : Mask :=
  match op with
  | Mask0 => mkMask (ones m) (N.land (zeros m) v)
  | Mask1 => mkMask (N.lor (ones m) v) (zeros m)
  | _ => m
  end.
(** :338-352 *)
Definition mask_test (m : Mask) (v : N) : bool := uint_func Mask0 v (zeros m) && uint_func Mask1 v (ones m).
Definition min_val (m : Mask) : N := N.land (zeros m) (ones m).
Definition wrong_bits (w : N) (m : Mask) (v : N) : N :=
  N.lor (N.land (unot w (zeros m)) v) (N.land (ones m) (unot w v)).
(** :363-385 [overflowing_in_set]. *)
Definition overflowing_in_set (w : N) (m : Mask) (val : N) : bool * N :=
  let wrong := wrong_bits w m val in
  if wrong =? 0 then (false, val)
  else
    let min := min_val m in
    let wrongmask := unot w (fst (overflowing_shl w (umax w) (w - 1 - leading_zeros w wrong))) in
    let vnz := N.lor (N.lor val (unot w (zeros m))) wrongmask in
    let pivot := trailing_ones w vnz in
    let '(freemask, over) := overflowing_shr w (umax w) (wrapping_sub32 (w - 1) pivot) in
    let incval := fst (overflowing_add w (N.lor val (fst (overflowing_shr w freemask 1))) 1) in
    let fix_mask := unot w (fst (overflowing_shl w (umax w) pivot)) in
    (over, N.lor (N.land incval (unot w fix_mask)) (N.land min fix_mask)).
(** :354-361 [in_set]. *)
Definition mask_in_set (w : N) (m : Mask) (val : N) : option N :=
  let '(overflow, v) := overflowing_in_set w m val in if overflow then None else Some v.

(** :412-416, 505-511 *)
Record TestSet := mkSet { bound : Bound; mask : Mask }.
Definition set_default (w : N) : TestSet := mkSet (bound_default w) (mask_default w).
(** :515-547 [info]. *)
Definition info (w : N) (s : TestSet) (v : N) : outcome TestErr SetValueInfo :=
  obind (bound_cmp (bound s) v) (fun c =>
  match c with
  | Lt => Ok (mkInfo false (mask_in_set w (mask s) (low (bound s))))
  | Eq => match mask_in_set w (mask s) v with
          | Some x => if high (bound s) <? x then Ok (mkInfo false None) else Ok (mkInfo (x =? v) (Some x))
          | None => Ok (mkInfo false None)
          end
  | Gt => Ok (mkInfo false None)
  end).
(** :548-561 *)
Definition min_value (w : N) (s : TestSet) : option N :=
  match mask_in_set w (mask s) (low (bound s)) with
  | None => None
  | Some v => if high (bound s) <? v then None else Some v
  end.
Definition has_any (w : N) (s : TestSet) : bool := match min_value w s with Some _ => true | None => false end.
(** :563-591 [rules]. *)
Definition rules (w : N) (s : TestSet) : list (TestOp * N) :=
  if negb (has_any w s) then [(Less, 0)]
  else bound_iter w (bound s) ++
       (if ones (mask s) =? 0 then [] else [(Mask1, ones (mask s))]) ++
       (if zeros (mask s) =? umax w then [] else [(Mask0, zeros (mask s))]).
(** :602-605 [add], 593-601 [try_add]. *)
Definition add (w : N) (s : TestSet) (op : TestOp) (v : N) : TestSet :=
  mkSet (bound_add w (bound s) op v) (mask_add (mask s) op v).
Definition try_add (w : N) (s : TestSet) (op : TestOp) (v : N) : outcome TestErr TestSet :=
  let s' := add w s op v in if has_any w s' then Ok s' else Err EIncompatible.
(** :647-652 [test]. *)
Definition test (w : N) (s : TestSet) (v : N) : bool :=
  forallb (fun '(op, rh) => uint_func op v rh) (rules w s).

(** :606-623 [unpack] and test_pkt.rs:190-217 [compile_stest]: [None] is no test at all,
    otherwise the list of tests that are all applied. *)
Definition mask_opt (d v : N) : option N := if v =? d then None else Some v.
Definition bound_eqb (a b : Bound) : bool := (low a =? low b) && (high a =? high b).
Definition mask_eqb (a b : Mask) : bool := (ones a =? ones b) && (zeros a =? zeros b).
Definition set_eqb (a b : TestSet) : bool := bound_eqb (bound a) (bound b) && mask_eqb (mask a) (mask b).
Definition compile_stest (w : N) (s : TestSet) : option (list (TestOp * N)) :=
  if set_eqb s (set_default w) then None
  else match bound_as_eq (bound s) with
       | Some v => Some [(Equal, v)]
       | None => Some (map (pair Less) (opt_list (less w (bound s))) ++
                       map (pair Greater) (opt_list (greater w (bound s))) ++
                       map (pair Mask0) (opt_list (mask_opt (umax w) (zeros (mask s)))) ++
                       map (pair Mask1) (opt_list (mask_opt 0 (ones (mask s)))))
       end.
Definition compiled_test (c : option (list (TestOp * N))) (v : N) : bool :=
  match c with None => true | Some l => forallb (fun '(op, rh) => uint_func op v rh) l end.

(** :713-735 [MembershipIter] (and :678-691 [iter_contains], which is the same with the
    position held by the caller): one call of [next], result and new position. *)
Definition member_next (w : N) (s : TestSet) (at_ : N) : option bool * N :=
  if high (bound s) <? at_ then (None, at_)
  else let r := test w s at_ in
       match inc w at_ with
       | Some nt => (Some r, nt)
       | None => if r then (Some r, at_) else (None, at_)
       end.
Definition member_peek (w : N) (s : TestSet) (at_ : N) : option bool :=
  if high (bound s) <? at_ then None else Some (test w s at_).
(** crates/core/src/env/lmdb/queries.rs:149,161,167,224,240-256: results zipped with the
    membership iterator and kept where it says [true]; [zip] ends when either side ends. *)
Fixpoint zip_members {A} (w : N) (s : TestSet) (at_ : N) (l : list A) : list A :=
  match l with
  | [] => []
  | a :: l' => match member_next w s at_ with
               | (None, _) => []
               | (Some true, nt) => a :: zip_members w s nt l'
               | (Some false, nt) => zip_members w s nt l'
               end
  end.
(** :696-706 [enumerate]: at most [n] items. *)
Definition info_val (w : N) (s : TestSet) (v : N) : option N :=
  match info w s v with Ok i => sval i | _ => None end.
Fixpoint enumerate_from (n : nat) (w : N) (s : TestSet) (next : option N) : list N :=
  match n, next with
  | S n', Some r => r :: enumerate_from n' w s (match inc w r with Some v => info_val w s v | None => None end)
  | _, _ => []
  end.
Definition enumerate (n : nat) (w : N) (s : TestSet) (start : N) : list N := enumerate_from n w s (info_val w s start).

(** ** bitset_test.rs: sets of depths as a u32. *)
Definition bit_shl32 (a r : N) : option N := if r <? 32 then Some (N.land (N.shiftl a r) (N.ones 32)) else None.
(** :51 [ALL] for MAX = 8 *)
Definition BIT_ALL : N := N.shiftr (N.ones 32) (32 - 8).
(** :64-66 *)
Definition bit_contains (s depth : N) : bool :=
  negb (N.land s (match bit_shl32 1 depth with Some b => b | None => 0 end) =? 0).
(** :67-72, 58-60 *)
Definition from_el_iter (l : list N) : N :=
  fold_left (fun this i => N.lor this (match bit_shl32 1 i with Some b => b | None => 0 end)) l 0.
Definition from_rules (t : TestSet) : N :=
  from_el_iter (filter (fun v => test 8 t v) [0;1;2;3;4;5;6;7;8]).
(** :78-85 [next_depth]; trailing_zeros of a non-zero u32. *)
Fixpoint trailing_zeros_from (n : nat) (i a : N) : N :=
  match n with
  | O => i
  | S n' => if N.testbit a i then i else trailing_zeros_from n' (i + 1) a
  end.
Definition next_depth (s at_ : N) : option N :=
  match bit_shl32 (N.ones 32) (at_ + 1) with
  | None => None
  | Some m => let new := N.land s m in
              if new =? 0 then None else Some (trailing_zeros_from 32 0 new)
  end.
(** :86-96 [info], 61-63 [contains_min], 52-57 [greater_eq]. *)
Definition bit_info (s v : N) : SetValueInfo :=
  let i := bit_contains s v in mkInfo i (if i then Some v else next_depth s v).
Definition bit_contains_min (s d : N) : bool :=
  bit_contains s d || (match next_depth s d with Some _ => true | None => false end).
Definition bit_greater_eq (ge : N) : N :=
  match bit_shl32 (N.ones 32) ge with Some g => N.land BIT_ALL g | None => 0 end.
