(** Model of spaces and rooted spaces.
    Source: crates/pkt/src/space.rs, crates/pkt/src/rooted_space.rs,
    crates/pkt/src/consts.rs. *)
From Verif Require Import Bytes.

(** crates/pkt/src/consts.rs:22-25 *)
Definition MAX_SPACENAME_SIZE : N := 242.
Definition MAX_ROOTED_SPACENAME_SIZE : N := 250.
Definition MAX_SPACENAME_COMPONENT_SIZE : N := 200.
Definition MAX_SPACE_DEPTH : N := 8.

(** crates/pkt/src/space.rs:33-51 *)
Inductive SpaceError :=
| EMaxDepth | EComponentSize | EZeroComponent | ETailLength | ECapacityError
| EMissingIdx | EEmptyComponentIdx | EBadOffset.

(** A [Space]/[SpaceBuf] is its inner bytes (space.rs:15-19, repr(transparent));
    ownership and borrowing are not modelled. *)
Notation space := bytes (only parsing).

(** crates/pkt/src/space.rs:445-462 [CheckedSpaceIter::next_sp_c]:
    [None] = end, [Some (Err e)], [Some (Ok (segment incl. length byte, rest))]. *)
Definition next_sp_c (b : space) : option (outcome SpaceError (space * space)) :=
  match b with
  | [] => None
  | len :: _ =>
      if MAX_SPACENAME_COMPONENT_SIZE <? len then Some (Err EComponentSize)
      else if len =? 0 then Some (Err EZeroComponent)
      else if lenN b <=? len then Some (Err ETailLength)
      else Some (Ok (takeN (len + 1) b, dropN (len + 1) b))
  end.

(** crates/pkt/src/space.rs:463-469 [next_c]: the segment without its length byte. *)
Definition next_c (b : space) : option (outcome SpaceError (bytes * space)) :=
  match next_sp_c b with
  | Some (Ok (s, r)) => Some (Ok (dropN 1 s, r))
  | Some (Err e) => Some (Err e)
  | Some Panic => Some Panic
  | Some OutOfFuel => Some OutOfFuel
  | None => None
  end.

(** crates/pkt/src/space.rs:340-348, the loop of [check_components]; the counter
    [i] is a u8 and counts at most 121 components (inputs are at most 242 bytes). *)
Fixpoint check_loop (fuel : nat) (b : space) (i : N) : outcome SpaceError N :=
  match next_c b with
  | None => Ok i
  | Some (Ok (_, r)) =>
      match fuel with O => OutOfFuel | S f => check_loop f r (i + 1) end
  | Some (Err e) => Err e
  | Some Panic => Panic
  | Some OutOfFuel => OutOfFuel
  end.

(** crates/pkt/src/space.rs:336-351 [check_components] with
    space.rs:404-409 [checked_iter].  Fuel: every iteration consumes a byte. *)
Definition check_components (b : space) : outcome SpaceError N :=
  if MAX_SPACENAME_SIZE <? lenN b then Err EMaxDepth
  else check_loop (length b) b 0.

(** crates/pkt/src/space.rs:117-123 [Space::from_slice]. *)
Definition space_from_slice (b : bytes) : outcome SpaceError space :=
  match check_components b with
  | Ok _ => Ok b | Err e => Err e | Panic => Panic | OutOfFuel => OutOfFuel
  end.

(** crates/pkt/src/space.rs:504-521 [SpaceIter::next]: [None] at the end or when the
    last component is truncated, panic on a length byte of 0 or above 200.  The
    second component of the result is the iterator left behind. *)
Definition iter_next (b : space) : outcome SpaceError (option bytes * space) :=
  match b with
  | [] => Ok (None, b)
  | len :: _ =>
      if (MAX_SPACENAME_COMPONENT_SIZE <? len) || (len =? 0) then Panic
      else if lenN b <? len + 1 then Ok (None, b)
      else Ok (Some (sliceN 1 (len + 1) b), dropN (len + 1) b)
  end.

(** [iter().collect()]: all items and the iterator left behind. *)
Fixpoint iter_all_fuel (fuel : nat) (b : space) : outcome SpaceError (list bytes * space) :=
  match iter_next b with
  | Ok (None, r) => Ok ([], r)
  | Ok (Some c, r) =>
      match fuel with
      | O => OutOfFuel
      | S f => obind (iter_all_fuel f r) (fun '(cs, r') => Ok (c :: cs, r'))
      end
  | Err e => Err e
  | Panic => Panic
  | OutOfFuel => OutOfFuel
  end.
Definition iter_all (b : space) := iter_all_fuel (length b) b.

(** crates/pkt/src/space.rs:234-242 [components]. *)
Definition components (b : space) : outcome SpaceError (list bytes) :=
  obind (iter_all b) (fun '(cs, r) => match r with [] => Ok cs | _ => Err ETailLength end).

(** crates/pkt/src/space.rs:168-170 [calc_depth] and [iter().count()]. *)
Definition iter_count (b : space) : outcome SpaceError N :=
  obind (iter_all b) (fun '(cs, _) => Ok (lenN cs)).

(** crates/pkt/src/space.rs:258-271 [try_push]. *)
Definition try_push (b : space) (c : bytes) : outcome SpaceError space :=
  if MAX_SPACENAME_COMPONENT_SIZE <? lenN c then Err EComponentSize
  else if lenN c =? 0 then Err EZeroComponent
  else if MAX_SPACENAME_SIZE <? lenN b + lenN c + 1 then Err ECapacityError
  else Ok (b ++ lenN c :: c).

(** crates/pkt/src/space.rs:276-293 [try_push_front]. *)
Definition try_push_front (b : space) (c : bytes) : outcome SpaceError space :=
  if MAX_SPACENAME_COMPONENT_SIZE <? lenN c then Err EComponentSize
  else if lenN c =? 0 then Err EZeroComponent
  else if MAX_SPACENAME_SIZE <? lenN b + lenN c + 1 then Err ECapacityError
  else Ok (lenN c :: c ++ b).

(** crates/pkt/src/space.rs:213-216, the loop of [extend_from_iter]. *)
Fixpoint push_all (b : space) (cs : list bytes) (depth : N) : outcome SpaceError (space * N) :=
  match cs with
  | [] => Ok (b, depth)
  | c :: cs' => obind (try_push b c) (fun b' => push_all b' cs' (depth + 1))
  end.

(** crates/pkt/src/space.rs:208-221 [extend_from_iter]. *)
Definition extend_from_iter (b : space) (cs : list bytes) : outcome SpaceError space :=
  obind (iter_count b) (fun d =>
  obind (push_all b cs d) (fun '(b', depth) =>
  if MAX_SPACE_DEPTH <? depth then Err EMaxDepth else Ok b')).

(** crates/pkt/src/space.rs:222-226 [try_from_iter]. *)
Definition try_from_iter (cs : list bytes) : outcome SpaceError space := extend_from_iter [] cs.

(** crates/pkt/src/space.rs:248-250 [try_append], 185-187 [try_join]: iterate the
    argument (lazily in the code; here collected first, which only differs when
    the argument is not a valid space and panics half way). *)
Definition try_append (b p : space) : outcome SpaceError space :=
  obind (iter_all p) (fun '(cs, _) => extend_from_iter b cs).

(** crates/pkt/src/space.rs:251-257 [try_prepend]: no depth check. *)
Definition try_prepend (b p : space) : outcome SpaceError space :=
  if MAX_SPACENAME_SIZE <? lenN b + lenN p then Err ECapacityError else Ok (p ++ b).

(** crates/pkt/src/space.rs:228-232 [truncate_last]. *)
Definition truncate_last (b : space) : outcome SpaceError space :=
  obind (iter_all b) (fun '(cs, _) =>
  match rev cs with
  | [] => Ok b
  | c :: _ => if lenN b <? lenN c + 1 then Panic else Ok (takeN (lenN b - (lenN c + 1)) b)
  end).

(** crates/pkt/src/space.rs:322-326, the loop of [split_last]: slicing
    [inner[len+1..]] panics when the component is truncated. *)
Fixpoint split_last_loop (fuel : nat) (this : space) (last : option space)
  : outcome SpaceError (option space) :=
  match this with
  | [] => Ok last
  | len :: _ =>
      if lenN this <? len + 1 then Panic
      else match fuel with
           | O => OutOfFuel
           | S f => split_last_loop f (dropN (len + 1) this) (Some this)
           end
  end.

(** crates/pkt/src/space.rs:318-335 [split_last]. *)
Definition split_last (b : space) : outcome SpaceError (space * option space) :=
  obind (split_last_loop (length b) b None) (fun last =>
  match last with
  | None => Ok ([], None)
  | Some v => let mid := lenN b - lenN v in Ok (takeN mid b, Some (dropN mid b))
  end).

(** crates/pkt/src/space.rs:314-317 [pop]. *)
Definition pop (b : space) : outcome SpaceError (space * option bytes) :=
  obind (split_last b) (fun '(parent, last) =>
  match last with
  | None => Ok (parent, None)
  | Some v => obind (iter_next v) (fun '(c, _) => Ok (parent, c))
  end).

(** crates/pkt/src/space.rs:308-313 [parent]. *)
Definition parent (b : space) : outcome SpaceError (option space) :=
  match b with [] => Ok None | _ => obind (split_last b) (fun '(a, _) => Ok (Some a)) end.

(** crates/pkt/src/space.rs:353-360 [split_first]. *)
Definition split_first (b : space) : outcome SpaceError (option (bytes * space)) :=
  match b with
  | [] => Ok None
  | len :: _ =>
      if lenN b <? len + 1 then Panic
      else Ok (Some (sliceN 1 (len + 1) b, dropN (len + 1) b))
  end.

(** crates/pkt/src/space.rs:362-367 [first]: [split_at] panics when too short. *)
Definition first (b : space) : outcome SpaceError bytes :=
  match b with
  | [] => Ok []
  | len :: rest => if lenN rest <? len then Panic else Ok (takeN len rest)
  end.

(** [Iterator::advance_by(n)] on [SpaceIter] (std), used by [split_at]:
    [Ok (true, rest)] when [n] items were skipped. *)
Fixpoint advance_by (n : nat) (b : space) : outcome SpaceError (bool * space) :=
  match n with
  | O => Ok (true, b)
  | S n' =>
      match iter_next b with
      | Ok (Some _, r) => advance_by n' r
      | Ok (None, r) => Ok (false, r)
      | Err e => Err e
      | Panic => Panic
      | OutOfFuel => OutOfFuel
      end
  end.

(** crates/pkt/src/space.rs:369-379 [split_at] and [byte_split_at]. *)
Definition split_at (b : space) (n : nat) : outcome SpaceError (space * space) :=
  obind (advance_by n b) (fun '(ok, r) =>
  if (ok : bool) then let mid := lenN b - lenN r in Ok (takeN mid b, dropN mid b)
  else Ok (b, [])).

(** crates/pkt/src/space.rs:383-385 [starts_with]: bytes. *)
Definition space_starts_with (b p : space) : bool := starts_with b p.

(** crates/pkt/src/space.rs:386-393 [strip_prefix]. *)
Definition strip_prefix (b p : space) : option space :=
  if starts_with b p then Some (dropN (lenN p) b) else None.

(** crates/pkt/src/space.rs:418-428 [scan_space] through 661-686 [Track]: the
    successive prefixes [/a], [/a/b], ... *)
Fixpoint scan_loop (fuel : nat) (full at_ : space) : outcome SpaceError (list space) :=
  match iter_next at_ with
  | Ok (None, _) => Ok []
  | Ok (Some _, r) =>
      match fuel with
      | O => OutOfFuel
      | S f => obind (scan_loop f full r) (fun ps => Ok (takeN (lenN full - lenN r) full :: ps))
      end
  | Err e => Err e
  | Panic => Panic
  | OutOfFuel => OutOfFuel
  end.
Definition scan_space (b : space) := scan_loop (length b) b b.

(** ** Rooted spaces *)

(** A rooted space is its bytes: 8 index bytes (depth, seven offsets) and the space. *)
Notation rspace := bytes (only parsing).

(** List element update [v[i] = x] (in range). *)
Fixpoint set_nth {A} (i : nat) (x : A) (l : list A) : list A :=
  match l, i with
  | [], _ => []
  | _ :: l', O => x :: l'
  | y :: l', S i' => y :: set_nth i' x l'
  end.

(** crates/pkt/src/space.rs:702-714, the loop of [try_into_rooted]; [i] counts
    0..8, [rest] is the checked iterator, [data] the buffer. *)
Fixpoint into_rooted_loop (n : nat) (i : nat) (rest : space) (data : rspace) (count : N)
  : outcome SpaceError (rspace * N) :=
  match n with
  | O => Ok (data, count)
  | S n' =>
      let data1 := set_nth i (lenN data - 8) data in
      match next_c rest with
      | None => into_rooted_loop n' (S i) rest data1 count
      | Some (Ok (v, r)) => into_rooted_loop n' (S i) r (data1 ++ lenN v :: v) (count + 1)
      | Some (Err e) => Err e
      | Some Panic => Panic
      | Some OutOfFuel => OutOfFuel
      end
  end.

(** crates/pkt/src/space.rs:693-725 [try_into_rooted] (release build: the
    [debug_assert!] on lines 717-723 is not modelled). *)
Definition try_into_rooted (b : space) : outcome SpaceError rspace :=
  match b with
  | [] => Ok []
  | _ =>
      if MAX_SPACENAME_SIZE <? lenN b then Err EMaxDepth
      else obind (into_rooted_loop 8 0 b (repeat 0 8) 0)
                 (fun '(data, count) => Ok (set_nth 0 count data))
  end.

(** crates/pkt/src/rooted_space.rs:242-258 [fields]: depth byte, the nine
    offsets and the space; [split_at(8)] panics on 1..7 bytes. *)
Definition rs_fields (b : rspace) : outcome SpaceError (N * list N * space) :=
  match b with
  | [] => Ok (0, repeat 0 9, [])
  | _ =>
      if lenN b <? 8 then Panic
      else let h := takeN 8 b in
           let sp := dropN 8 b in
           Ok (hd 0 h, 0 :: tl h ++ [N.min 255 (lenN sp)], sp)
  end.

(** crates/pkt/src/rooted_space.rs:237-239 [space]. *)
Definition rs_space (b : rspace) : outcome SpaceError space :=
  obind (rs_fields b) (fun '(_, _, sp) => Ok sp).

(** crates/pkt/src/rooted_space.rs:261-273 [space_depth]/[depth]. *)
Definition rs_depth (b : rspace) : N := hd 0 b.

(** crates/pkt/src/rooted_space.rs:215-233, the loop of [check_components]. *)
Fixpoint rs_check_loop (n : nat) (i len ptr : N) (idx : list N) (iter : space)
  : outcome SpaceError unit :=
  match n with
  | O => Ok tt
  | S n' =>
      match next_sp_c iter with
      | Some (Err e) => Err e
      | Some Panic => Panic
      | Some OutOfFuel => OutOfFuel
      | Some (Ok (segm, next)) =>
          let ptr' := ptr + lenN segm in
          if nth (N.to_nat (i + 1)) idx 0 =? ptr'
          then rs_check_loop n' (i + 1) len ptr' idx next
          else Err EBadOffset
      | None =>
          if len =? i then
            if nth (N.to_nat (i + 1)) idx 0 =? ptr
            then rs_check_loop n' (i + 1) (len + 1) ptr idx iter
            else Err EBadOffset
          else Err EEmptyComponentIdx
      end
  end.

(** crates/pkt/src/rooted_space.rs:198-235 [check_components]. *)
Definition rs_check_components (b : rspace) : outcome SpaceError unit :=
  match b with
  | [] => Ok tt
  | _ =>
      if lenN b <? 8 then Err EMissingIdx
      else if MAX_ROOTED_SPACENAME_SIZE <? lenN b then Err EMaxDepth
      else obind (rs_fields b) (fun '(len, idx, sp) =>
           if MAX_SPACENAME_SIZE <? lenN sp then Err EMaxDepth
           else rs_check_loop 8 0 len 0 idx sp)
  end.

(** crates/pkt/src/rooted_space.rs:336-366 [pre_idx_comp]: the eight raw slices;
    reading outside the buffer (undefined behaviour in the code) is [Panic]. *)
Definition raw_slice (rest : bytes) (a b : N) : outcome SpaceError bytes :=
  let l := (b + 256 - a) mod 256 in
  if lenN rest <? a + l then Panic else Ok (takeN l (dropN a rest)).
Definition rs_ptr (b : rspace) (i : N) : N :=
  if i =? 0 then 0
  else if i =? 8 then (lenN b - 8) mod 256
  else nth (N.to_nat i) b 0.
Definition rs_comp_space (b : rspace) (i : N) : outcome SpaceError space :=
  match b with
  | [] => Ok []
  | _ => if lenN b <? 8 then Panic
         else raw_slice (dropN 8 b) (rs_ptr b i) (rs_ptr b (i + 1))
  end.

(** crates/pkt/src/rooted_space.rs:295-331 [comp], [comp0]..[comp7]: indexing
    the table of 8 functions panics for [i >= 8]. *)
Definition rs_comp (b : rspace) (i : N) : outcome SpaceError bytes :=
  if i <? 8 then obind (rs_comp_space b i) first else Panic.

(** Sequencing a list of outcomes: the first failure wins. *)
Fixpoint oseq {E A} (l : list (outcome E A)) : outcome E (list A) :=
  match l with
  | [] => Ok []
  | x :: l' => obind x (fun a => obind (oseq l') (fun r => Ok (a :: r)))
  end.

(** crates/pkt/src/rooted_space.rs:278-280 [iter]. *)
Definition rs_iter (b : rspace) : outcome SpaceError (list bytes) :=
  oseq (map (fun i => rs_comp b (N.of_nat i)) (seq 0 (N.to_nat (rs_depth b)))).

(** crates/pkt/src/rooted_space.rs:281-283 [comps_bytes]. *)
Definition rs_comps_bytes (b : rspace) : outcome SpaceError (list bytes) :=
  oseq (map (fun i => rs_comp b (N.of_nat i)) (seq 0 8)).

(** crates/pkt/src/rooted_space.rs:285-289 [range]: panics when an index is above
    8 or the slice is out of range. *)
Definition rs_range (b : rspace) (s e : N) : outcome SpaceError space :=
  obind (rs_fields b) (fun '(_, segm, sp) =>
  if (8 <? s) || (8 <? e) then Panic
  else let a := nth (N.to_nat s) segm 0 in
       let z := nth (N.to_nat e) segm 0 in
       if (z <? a) || (lenN sp <? z) then Panic else Ok (sliceN a z sp)).

(** crates/pkt/src/rooted_space.rs:291-293 [last]. *)
Definition rs_last (b : rspace) : outcome SpaceError bytes := rs_comp b (rs_depth b - 1).

(** crates/pkt/src/rooted_space.rs:138-140: set [bs[k..8]] to [x]. *)
Definition fill8 (k x : N) (l : bytes) : bytes :=
  takeN k l ++ repeat x (N.to_nat (8 - k)) ++ dropN 8 l.

(** crates/pkt/src/rooted_space.rs:115-142 [try_append_component]; the buffer after
    a failure is the input, or eight zero bytes if it was empty and a later check
    fails (which cannot happen on an empty buffer). *)
Definition rs_try_append (b0 : rspace) (c : bytes) : outcome SpaceError rspace :=
  if MAX_SPACENAME_COMPONENT_SIZE <? lenN c then Err EComponentSize
  else if lenN c =? 0 then Err EZeroComponent
  else
    let b := match b0 with [] => repeat 0 8 | _ => b0 end in
    if MAX_SPACE_DEPTH <=? hd 0 b then Err ECapacityError
    else if MAX_ROOTED_SPACENAME_SIZE <? lenN b + lenN c + 1 then Err EMaxDepth
    else
      let new_len := hd 0 b + 1 in
      let b1 := set_nth 0 new_len b ++ lenN c :: c in
      Ok (fill8 new_len (lenN b1 - 8) b1).

(** crates/pkt/src/rooted_space.rs:150-158 [extend_from_iter]: the result carries
    the buffer as it is when the call returns, because the buffer is [&mut]: the
    components before the failing one stay appended. *)
Fixpoint rs_extend (b : rspace) (cs : list bytes) : rspace * outcome SpaceError unit :=
  match cs with
  | [] => (b, Ok tt)
  | c :: cs' =>
      match rs_try_append b c with
      | Ok b' => rs_extend b' cs'
      | Err e => (b, Err e)
      | Panic => (b, Panic)
      | OutOfFuel => (b, OutOfFuel)
      end
  end.

(** crates/pkt/src/rooted_space.rs:160-166 [try_from_iter] (and [rspace_buf]
    368-370, which unwraps it). *)
Definition rs_try_from_iter (cs : list bytes) : outcome SpaceError rspace :=
  match rs_extend [] cs with
  | (b, Ok _) => Ok b
  | (_, Err e) => Err e
  | (_, Panic) => Panic
  | (_, OutOfFuel) => OutOfFuel
  end.

(** crates/pkt/src/rooted_space.rs:146-149 [try_join]. *)
Definition rs_try_join (b : rspace) (i : space) : outcome SpaceError rspace :=
  obind (iter_all i) (fun '(cs, _) =>
  match rs_extend b cs with
  | (b', Ok _) => Ok b'
  | (_, Err e) => Err e
  | (_, Panic) => Panic
  | (_, OutOfFuel) => OutOfFuel
  end).

(** crates/pkt/src/rooted_space.rs:39-58 [rspace1] (a const fn; [Panic] is a
    compile-time failure). *)
Definition rspace1 (c0 : bytes) : outcome SpaceError rspace :=
  if lenN c0 <? MAX_SPACENAME_COMPONENT_SIZE then
    let r := 1 :: repeat (lenN c0 + 1) 7 ++ lenN c0 :: c0 in
    match rs_check_components r with Ok _ => Ok r | _ => Panic end
  else Panic.
