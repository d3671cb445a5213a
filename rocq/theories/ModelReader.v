(** * Reading data into points: crates/common/src/cli/reader.rs,
      cli/linkspace/src/datapoint.rs and cli/linkspace/src/point.rs *)
From Coq Require Import List NArith ZArith Bool.
From Verif Require Import Bytes ModelPkt ModelAbe ModelEval.
Import ListNotations.
Local Open Scope N_scope.

(** crates/common/src/cli/reader.rs:136-144 [EMode]. *)
Inductive EMode := MError | MSplit | MCarry | MTrim.

(** crates/common/src/cli/reader.rs:146-152 [ReadSource].  A string, a file and a mapped
    file are the same here: all their bytes and the bytes not read yet.  [s_all = None] is
    standard input, which cannot be rewound.  Input errors, and files changed while
    they are read, are left out. *)
Record source := mkSource { s_all : option bytes; s_rest : bytes }.

(** crates/common/src/cli/reader.rs:220-229 [Reader]. *)
Record Reader := mkReader {
  r_next : option bytes; r_take_max : option N; r_call_limit : N; r_input : option source;
  r_cycle : bool; r_eval : bool; r_delim : option N; r_on_overflow : EMode }.
Definition with_next (r : Reader) (n : option bytes) : Reader :=
  mkReader n (r_take_max r) (r_call_limit r) (r_input r) (r_cycle r) (r_eval r) (r_delim r) (r_on_overflow r).
Definition with_limit (r : Reader) (n : N) : Reader :=
  mkReader (r_next r) (r_take_max r) n (r_input r) (r_cycle r) (r_eval r) (r_delim r) (r_on_overflow r).
Definition with_input (r : Reader) (i : option source) : Reader :=
  mkReader (r_next r) (r_take_max r) (r_call_limit r) i (r_cycle r) (r_eval r) (r_delim r) (r_on_overflow r).

(** The errors: too much data (:293), an expression (:280), a negative free space
    (point.rs:92), no data for the first point (point.rs:112). *)
Inductive ReadError := ETooBig | EAbe (e : LkError) | ENoSpace | EEof.

(** crates/common/src/cli/reader.rs:115-134, 195-219: the options, and [open_reader] with
    the delimiter evaluated and the source open. *)
Record DataReadOpts := mkDataOpts {
  o_delim : option N; o_bufsize : option N; o_reads : option N; o_overflow : option EMode;
  o_eval : bool; o_repeat : bool }.
Definition open_reader (o : DataReadOpts) (input : option source) : Reader :=
  mkReader None (o_bufsize o) (match o_reads o with Some n => n | None => 2 ^ 64 - 1 end) input
           (o_repeat o) (o_eval o) (o_delim o) (match o_overflow o with Some m => m | None => MError end).

(** [BufRead::read_until]: up to and with the first delimiter. *)
Fixpoint upto (d : N) (t : bytes) : bytes :=
  match t with
  | [] => []
  | b :: t' => if b =? d then [b] else b :: upto d t'
  end.
(** :180-193 [ReadSource::read] into an empty buffer. *)
Definition source_read (s : source) (take : N) (delim : option N) : bytes * source :=
  let got := match delim with
             | Some d => upto d (takeN (N.min (take + 1) (2 ^ 64 - 1)) (s_rest s))
             | None => takeN take (s_rest s)
             end in
  (got, mkSource (s_all s) (dropN (lenN got) (s_rest s))).
(** :171-179 [rewind]: a panic on standard input. *)
Definition rewind (s : source) : option source :=
  match s_all s with Some t => Some (mkSource (Some t) t) | None => None end.

(** :285-309 [check_size]. *)
Definition check_size (r : Reader) (buf : bytes) (freespace : N) : Reader * outcome ReadError bytes :=
  let '(r, buf) := match r_on_overflow r, r_next r with
                   | MCarry, Some carry => (with_next r None, carry ++ buf)
                   | _, _ => (r, buf)
                   end in
  if freespace <? lenN buf then
    match r_on_overflow r with
    | MError => (r, Err ETooBig)
    | MTrim => (r, Ok (takeN freespace buf))
    | MSplit | MCarry => (with_next r (Some (dropN freespace buf)), Ok (takeN freespace buf))
    end
  else (r, Ok buf).

Section Scope.
  (** The scope of [eval], with the fuel of the evaluator of ModelEval. *)
  Variables (fuel : nat) (s : scope).

  Definition of_lk (r : outcome LkError bytes) : outcome ReadError bytes :=
    match r with Ok b => Ok b | Err e => Err (EAbe e) | Panic => Panic | OutOfFuel => OutOfFuel end.

  (** :276-283, after the read: the delimiter is dropped, the rest evaluated and its size
      checked. *)
  Definition take_block (r : Reader) (got : bytes) (freespace : N)
    : Reader * outcome ReadError (option bytes) :=
    let buf := match r_delim r with
               | Some d => if last got (d + 1) =? d then removelast got else got
               | None => got
               end in
    match (if r_eval r then of_lk (lk_eval fuel s buf false) else Ok buf) with
    | Ok buf => match check_size r buf freespace with
                | (r, Ok b) => (r, Ok (Some b))
                | (r, Err e) => (r, Err e)
                | (r, Panic) => (r, Panic)
                | (r, OutOfFuel) => (r, OutOfFuel)
                end
    | Err e => (r, Err e)
    | Panic => (r, Panic)
    | OutOfFuel => (r, OutOfFuel)
    end.

  (** :254-283 [read_next_data] without an overflow to return; the buffer is empty at the
      call, as in all callers.  [Some b]: the buffer holds [b]. *)
  Definition read_new (r : Reader) (freespace : N) : Reader * outcome ReadError (option bytes) :=
    if r_call_limit r =? 0 then (r, Ok None)
    else
      let take := match r_take_max r with Some n => n | None => freespace end in
      let r := with_limit r (r_call_limit r - 1) in
      match r_input r with
      | None => (r, Ok (Some []))
      | Some inp =>
          let '(got, inp) := source_read inp take (r_delim r) in
          match got with
          | _ :: _ => take_block (with_input r (Some inp)) got freespace
          | [] =>
              if negb (r_cycle r) then (with_input r (Some inp), Ok None)
              else match rewind inp with
                   | None => (r, Panic)
                   | Some inp =>
                       let '(got, inp) := source_read inp take (r_delim r) in
                       match got with
                       | _ :: _ => take_block (with_input r (Some inp)) got freespace
                       | [] => (with_limit (with_input r None) 0, Ok None)
                       end
                   end
          end
      end.

  (** :231-284 [read_next_data].  In [MCarry] the call is recursive once, as the overflow has
      been taken; when that call has no data the buffer stays empty. *)
  Definition read_next_data (r : Reader) (freespace : N) : Reader * outcome ReadError (option bytes) :=
    if r_call_limit r =? 0 then (r, Ok None)
    else match r_next r with
         | None => read_new r freespace
         | Some b =>
             let r := with_next r None in
             let '(r, more) := match r_on_overflow r with
                               | MCarry => match read_new r freespace with
                                           | (r, Ok (Some x)) => (r, Ok (b ++ x))
                                           | (r, Ok None) => (r, Ok b)
                                           | (r, Err e) => (r, Err e)
                                           | (r, Panic) => (r, Panic)
                                           | (r, OutOfFuel) => (r, OutOfFuel)
                                           end
                               | _ => (r, Ok b)
                               end in
             match more with
             | Ok buf => match check_size r buf freespace with
                         | (r, Ok x) => (r, Ok (Some x))
                         | (r, Err e) => (r, Err e)
                         | (r, Panic) => (r, Panic)
                         | (r, OutOfFuel) => (r, OutOfFuel)
                         end
             | Err e => (r, Err e)
             | Panic => (r, Panic)
             | OutOfFuel => (r, OutOfFuel)
             end
         end.

  Variables (c : crypto) (nh : bytes).

  (** cli/linkspace/src/datapoint.rs:7-27 [write_datapoint]: the packets written, and how it
      ends.  The free space is [MAX_DATA_SIZE]; [datapoint] unwraps the size check
      (crates/pkt/src/builder.rs:10-12).  [n] bounds the number of packets. *)
  Fixpoint write_datapoint (n : nat) (r : Reader) : list NetPktParts * outcome ReadError unit :=
    match n with
    | O => ([], OutOfFuel)
    | S n =>
        match read_next_data r MAX_CONTENT_SIZE with
        | (r, Ok (Some buf)) =>
            match try_datapoint c buf nh with
            | Ok p => let '(l, e) := write_datapoint n r in (p :: l, e)
            | _ => ([], Panic)
            end
        | (_, Ok None) => ([], Ok tt)
        | (_, Err e) => ([], Err e)
        | (_, Panic) => ([], Panic)
        | (_, OutOfFuel) => ([], OutOfFuel)
        end
    end.

  (** cli/linkspace/src/point.rs:20-50 [PointOpts] evaluated: group, domain, the space in its
      two forms, the key with [--sign], and the stamp of the k-th point ([--create] or
      the clock). *)
  Variables (g dm space rspace : bytes) (key : option (skey c)) (stamp : nat -> N).

  (** :84-100 [build_with_reader] and :52-82 [build]: [point] unwraps the size check
      (crates/pkt/src/builder.rs:46-68). *)
  Definition build_with_reader (k : nat) (ls : list (bytes * bytes)) (r : Reader)
    : Reader * outcome ReadError (option NetPktParts) :=
    let free := calc_free_space space ls [] (match key with Some _ => true | None => false end) in
    if (free <? 0)%Z then (r, Err ENoSpace)
    else match read_next_data r (Z.to_N free) with
         | (r, Ok (Some data)) =>
             match try_point c g dm rspace ls data (stamp k) key nh with
             | Ok p => (r, Ok (Some p))
             | _ => (r, Panic)
             end
         | (r, Ok None) => (r, Ok None)
         | (r, Err e) => (r, Err e)
         | (r, Panic) => (r, Panic)
         | (r, OutOfFuel) => (r, OutOfFuel)
         end.

  (** :122-143, the loop of [--multi]; [tag] is the evaluated [--multi-link]. *)
  Fixpoint linkpoint_loop (n : nat) (k : nat) (ls : list (bytes * bytes)) (tag : option bytes)
    (ptr : bytes) (r : Reader) : list NetPktParts * outcome ReadError unit :=
    match n with
    | O => ([], OutOfFuel)
    | S n =>
        let ls' := match tag with Some t => ls ++ [(t, ptr)] | None => ls end in
        match build_with_reader k ls' r with
        | (r, Ok (Some p)) =>
            let '(l, e) := linkpoint_loop n (S k) ls tag (np_hash p) r in (p :: l, e)
        | (_, Ok None) => ([], Ok tt)
        | (_, Err e) => ([], Err e)
        | (_, Panic) => ([], Panic)
        | (_, OutOfFuel) => ([], OutOfFuel)
        end
    end.
  (** :102-143 [linkpoint]. *)
  Definition linkpoint (n : nat) (ls : list (bytes * bytes)) (multi : bool) (tag : option bytes)
    (r : Reader) : list NetPktParts * outcome ReadError unit :=
    match build_with_reader 0 ls r with
    | (r, Ok (Some p)) =>
        if multi then let '(l, e) := linkpoint_loop n 1 ls tag (np_hash p) r in (p :: l, e)
        else ([p], Ok tt)
    | (_, Ok None) => ([], Err EEof)
    | (_, Err e) => ([], Err e)
    | (_, Panic) => ([], Panic)
    | (_, OutOfFuel) => ([], OutOfFuel)
    end.
End Scope.
