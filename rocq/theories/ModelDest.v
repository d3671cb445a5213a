(** Model of the destinations of packets on the command line.  Source:
    crates/common/src/cli/mod.rs:22-147, crates/common/src/cli/opts.rs:193-237.  Error texts are left out;
    a write to a stream does not fail, and opening a file gives the stream of its path. *)
From Verif Require Import Bytes ModelSpace ModelPkt ModelAbe ModelEval ModelFn ModelPktScope ModelStore ModelCliQuery.

Inductive DestErr := DText | DMatch | DName | DTail | DPath | DPrivate | DBuffer | DSave | DExpr.

(** cli/mod.rs:50-56 [WriteDest<()>]: the expressions of the path and of what to write. *)
Record DestSpec := mkDest { d_path : list ABE; d_prep : option (list ABE) }.
(** cli/mod.rs:45-49 [Out], [Fd] by what it was opened from. *)
Inductive Sink := SStdout | SStderr | SFile (path : bytes) | SDb | SBuffer.
Definition strip_suffix (b suf : bytes) : option bytes :=
  if (lenN suf <=? lenN b) && beqb (dropN (lenN b - lenN suf) b) suf then Some (takeN (lenN b - lenN suf) b) else None.
(** abe_macro.rs: [abev!([0] "x")] is two byte strings. *)
Definition special_path (x : bytes) : list ABE := match x with [] => [ABytes [0]] | _ => [ABytes [0]; ABytes x] end.
(** cli/mod.rs:66-81: what a name that is not a file is the path of. *)
Definition sink_name (is_expr : bool) (d : bytes) : option bytes :=
  if beqb d (str "-") && negb is_expr then Some (str "stdout")
  else if beqb d (str "stdout") then Some (str "stdout")
  else if beqb d (str "stderr") then Some (str "stderr")
  else if beqb d (str "null") then Some []
  else if beqb d (str "db") then Some (str "db")
  else if beqb d (str "buffer") then Some (str "buffer")
  else None.
Definition rest_of (o : option (list ABE)) : list ABE := match o with Some l => l | None => [] end.
(** cli/mod.rs:88-104: the expression, or nothing more. *)
Definition finish_dest (is_expr : bool) (path : list ABE) (it : option (list ABE)) : outcome DestErr DestSpec :=
  if is_expr then
    let e := fst (next_piece it) in Ok (mkDest path (match e with [] => None | _ => Some e end))
  else match it with None => Ok (mkDest path None) | Some _ => Err DTail end.
(** cli/mod.rs:58-111 [from_str]; [it] is the iterator over the pieces between colons. *)
Definition parse_dest (t : bytes) : outcome DestErr DestSpec :=
  match parse_abe_strict t with
  | Ok abe =>
      let '(first, it) := to_colon abe in
      match first with
      | [ABytes dest] =>
          let '(is_expr, d) := match strip_suffix dest (str "-expr") with Some d => (true, d) | None => (false, dest) end in
          match sink_name is_expr d with
          | Some x => finish_dest is_expr (special_path x) it
          | None =>
              if beqb d (str "file") then
                if is_expr then
                  match it with
                  | None => Err DPath
                  | Some _ => let '(p, it') := next_piece it in finish_dest true p it'
                  end
                else finish_dest false (rest_of it) None
              else Err DName
          end
      | _ => Err DMatch
      end
  | Err _ => Err DText
  | Panic => Panic
  | OutOfFuel => OutOfFuel
  end.

(** abe/src/convert.rs:68-71, eval.rs:54-58: an expression as bytes. *)
Definition eval_bytes (fuel : nat) (s : scope) (l : list ABE) : outcome EvalError bytes :=
  obind (eval fuel s l) (fun a => Ok (abl_concat a)).
(** cli/mod.rs:121-147 [open]: [None] for null. *)
Definition open_dest (fuel : nat) (s : scope) (d : DestSpec) : outcome DestErr (option Sink) :=
  match eval_bytes fuel s (d_path d) with
  | Ok (0 :: b) =>
      if beqb b (str "buffer") then Ok (Some SBuffer)
      else if beqb b (str "db") then Ok (Some SDb)
      else if beqb b (str "stdout") then Ok (Some SStdout)
      else if beqb b (str "stderr") then Ok (Some SStderr)
      else if beqb b [] || beqb b (str "null") then Ok None
      else Err DPath
  | Ok p => if is_utf8 p then Ok (Some (SFile p)) else Err DPath
  | Err _ => Err DPath
  | Panic => Panic
  | OutOfFuel => OutOfFuel
  end.

(** What is written: bytes to a stream, bytes to the buffer of the command, a packet saved. *)
Inductive Effect := WBytes (to : Sink) (b : bytes) | WBuffer (b : bytes) | WSave (p : NetPktParts).
(** cli/mod.rs:23-44 [write_pkt2]: [scope_of] is the scope of the command with the packet. *)
Definition pkt_bytes_for (fuel : nat) (scope_of : NetPktParts -> scope) (prep : option (list ABE)) (p : NetPktParts) : outcome DestErr bytes :=
  match prep with
  | None => Ok (np_bytes p)
  | Some e => match eval_bytes fuel (scope_of p) e with Ok b => Ok b | Err _ => Err DExpr | Panic => Panic | OutOfFuel => OutOfFuel end
  end.
(** cli/opts.rs:177-192 [check_private] and 199-220 [write_dest]. *)
Definition write_spec (fuel : nat) (scope_of : NetPktParts -> scope) (private : option bool) (has_buffer : bool) (d : DestSpec) (k : Sink) (p : NetPktParts)
  : outcome DestErr (list Effect) :=
  let to_private := match check_private (parts_group (point_parts p)) with Ok _ => false | _ => true end in
  match private, to_private with
  | Some false, true => Err DPrivate
  | None, true => Ok []
  | _, _ =>
      match k with
      | SDb => Ok [WSave p]
      | SBuffer => if has_buffer then obind (pkt_bytes_for fuel scope_of (d_prep d) p) (fun b => Ok [WBuffer b]) else Err DBuffer
      | _ => obind (pkt_bytes_for fuel scope_of (d_prep d) p) (fun b => Ok [WBytes k b])
      end
  end.
