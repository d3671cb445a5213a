(** Model of the queries of the command line.  Source: crates/common/src/dgs.rs,
    crates/common/src/predicate_aliases.rs, cli/linkspace/src/watch.rs, crates/core/src/env/query_mode.rs.
    Error texts are left out; the parsing of the arguments by clap is not modelled. *)
From Verif Require Import Bytes ModelSpace ModelTestSet ModelPred ModelQuery ModelQText.

Inductive CliErr := CText | CMatch | CDepth | CLength | CStmt (e : QErr).

(** ** domain:group:space:depth *)
(** dgs.rs:21-26 *)
Record DGSExpr := mkDGS { e_domain : list ABE; e_group : list ABE; e_space : list ABE }.
(** The iterator of [slice::split] on colons: the piece up to the next colon and what is left,
    [None] when it is finished. *)
Fixpoint to_colon (l : list ABE) : list ABE * option (list ABE) :=
  match l with
  | [] => ([], None)
  | ACtr CColon :: r => ([], Some r)
  | e :: r => let '(p, o) := to_colon r in (e :: p, o)
  end.
Definition next_piece (o : option (list ABE)) : list ABE * option (list ABE) :=
  match o with None => ([], None) | Some l => to_colon l end.
(** abe/src/ast.rs:208-215 [no_ctrs], byte-fmt/src/lib.rs:298-303, 449-454: the check of domains and hashes *)
Definition no_ctrs (l : list ABE) : bool := forallb is_expr l.
(** dgs.rs:171-192 [try_take_dgs].  [dom] and [grp] are the defaults of the thread (thread_local.rs). *)
Definition try_take_dgs (dom grp : bytes) (ast : list ABE) : outcome CliErr (DGSExpr * list ABE) :=
  let '(d, o1) := next_piece (Some ast) in
  let '(g, o2) := next_piece o1 in
  let '(s, o3) := next_piece o2 in
  let checked (default : ABE) (l : list ABE) := match l with [] => Ok [default] | _ => if no_ctrs l then Ok l else Err CMatch end in
  obind (checked (ab_to_abe dom) d) (fun d =>
  obind (checked (b64_to_abe grp) g) (fun g =>
  if space_check s then Ok (mkDGS d g s, match o3 with None => [] | Some r => r end) else Err CMatch)).
(** dgs.rs:218-244 [try_take_subsegm_expr], only called with a first element *)
Definition depth_names : list (bytes * N) :=
  [(str "0", 0); (str "1", 1); (str "2", 2); (str "3", 3); (str "4", 4); (str "5", 5); (str "6", 6); (str "7", 7); (str "8", 8);
   (str "*", 1); (str "**", 8)].
Definition try_take_subsegm_expr (ast : list ABE) : outcome CliErr (N * list ABE) :=
  match ast with
  | [] => Ok (0, [])
  | ACtr _ :: _ => Err CMatch
  | ABytes b :: rest => match find (fun x => beqb (fst x) b) depth_names with Some x => Ok (snd x, rest) | None => Err CDepth end
  | ALst _ :: _ => Err CDepth
  end.
(** dgs.rs:194-206 [dgpd] and 208-216 [from_str] *)
Definition dgpd (dom grp : bytes) (ast : list ABE) : outcome CliErr (DGSExpr * N) :=
  obind (try_take_dgs dom grp ast) (fun '(dgs, rest) =>
  match rest with
  | [] => Ok (dgs, 0)
  | _ => obind (try_take_subsegm_expr rest) (fun '(l, rest) => match rest with [] => Ok (dgs, l) | _ => Err CMatch end)
  end).
Definition parse_dgpd (dom grp t : bytes) : outcome CliErr (DGSExpr * N) :=
  match parse_abe_strict t with Ok ast => dgpd dom grp ast | Err _ => Err CText | Panic => Panic | OutOfFuel => OutOfFuel end.
(** abe_macro.rs:7-44: a statement "name" : "op" : +(value) *)
Definition stmt_expr (name op : bytes) (value : list ABE) : list ABE := [ABytes name; ACtr CColon; ABytes op; ACtr CColon] ++ value.
(** dgs.rs:78-97 [as_test_exprs] *)
Definition as_test_exprs (e : DGSExpr) : list (list ABE) :=
  [stmt_expr (str "domain") (str "=") (e_domain e); stmt_expr (str "group") (str "=") (e_group e)] ++
  match e_space e with [] => [] | sp => [stmt_expr (str "prefix") (str "=") sp] end.
(** dgs.rs:143-169 [predicate_exprs] *)
Definition fslashes (l : list ABE) : N := lenN (filter (abe_is CFSlash) l).
Definition predicate_exprs (e : DGSExpr) (limit : N) : outcome CliErr (list (list ABE)) :=
  if negb (limit =? 8) && negb (match e_space e with [] => true | _ => false end) && negb (existsb (abe_is CFSlash) (e_space e))
  then Err CLength
  else Ok (as_test_exprs e ++
           if limit <? 8 then
             let exclude := N.min (N.min (N.min (fslashes (e_space e)) 8 + limit) 255) 8 + 1 in
             [stmt_expr (str "depth") (str "<") [uint_to_abe false 1 [exclude]]]
           else []).

(** ** The other arguments *)
(** predicate_aliases.rs:24-67 *)
Record Aliases := mkAliases {
  a_db_only : bool; a_new_only : bool; a_max : option N; a_max_branch : option N; a_max_index : option N; a_max_new : option N;
  a_signed : bool; a_unsigned : bool; a_watch : bool; a_qid : option (list ABE); a_follow : bool; a_until : option bytes }.
Definition opt_list {A B} (f : A -> B) (o : option A) : list B := match o with Some a => [f a] | None => [] end.
Definition flag {B} (c : bool) (x : B) : list B := if c then [x] else [].
(** predicate_aliases.rs:71-128 [as_predicates]; [now] is the clock. *)
Definition limit_expr (q : QScope) (n : N) : list ABE := stmt_expr (rule_name (RLimit q)) (str "<") [uint_to_abe false 4 (be_encode 4 n)].
Definition as_predicates (now : N) (a : Aliases) : list (list ABE) :=
  opt_list (fun v => [ACtr CColon; ABytes (str "qid"); ACtr CColon] ++ v)
    (match a_qid a with Some v => Some v | None => if a_watch a then Some [ABytes (str "default")] else None end) ++
  opt_list (fun v => stmt_expr (str "recv") (str "<")
    [ALst [ACtr CColon; ABytes (be_encode 8 now); ACtr CFSlash; ABytes (str "us"); ACtr CColon; ABytes (str "+"); ABytes v]]) (a_until a) ++
  flag (a_follow a) [ACtr CColon; ABytes (str "follow")] ++
  flag (a_signed a) (stmt_expr (str "type") (str "1") [abe_bits [4]]) ++
  flag (a_unsigned a) (stmt_expr (str "type") (str "0") [abe_bits [251]]) ++
  opt_list (limit_expr QQuery) (a_max a) ++ opt_list (limit_expr QNew) (a_max_new a) ++
  opt_list (limit_expr QIndex) (a_max_index a) ++ opt_list (limit_expr QBranch) (a_max_branch a) ++
  flag (a_db_only a) (limit_expr QNew 0) ++ flag (a_new_only a) (limit_expr QIndex 0).

(** ** The query *)
(** watch.rs:42-51 [statements2query]; [fuel] is that of [eval]. *)
Fixpoint statements2query (fuel : nat) (s : scope) (q : TQuery) (l : list (list ABE)) : outcome CliErr TQuery :=
  match l with
  | [] => Ok q
  | e :: r =>
      match eval fuel s e with
      | Ok v => match add_stmt q v with
                | Ok q' => statements2query fuel s q' r
                | Err x => Err (CStmt x) | Panic => Panic | OutOfFuel => OutOfFuel
                end
      | Err _ => Err CText | Panic => Panic | OutOfFuel => OutOfFuel
      end
  end.
(** watch.rs:13-41: [c_dgpd] is absent with --bare. *)
Record CliOpts := mkCli { c_dgpd : option (DGSExpr * N); c_aliases : Aliases; c_exprs : list (list ABE) }.
Definition iter_statements (now : N) (c : CliOpts) : outcome CliErr (list (list ABE)) :=
  obind (match c_dgpd c with None => Ok [] | Some (e, l) => predicate_exprs e l end) (fun d =>
  Ok (d ++ as_predicates now (c_aliases c) ++ c_exprs c)).
Definition opts_query (fuel : nat) (s : scope) (now : N) (c : CliOpts) : outcome CliErr TQuery :=
  obind (iter_statements now c) (statements2query fuel s q_default).

(** query_mode.rs:8-46: [true] is ascending; [FromStr] and [Display] of "{table}-{order}" *)
Definition Mode : Type := Table * bool.
Definition mode_text (m : Mode) : bytes :=
  (match fst m with THash => str "hash" | TTree => str "tree" | TLog => str "log" end) ++ str "-" ++ (if snd m then str "asc" else str "desc").
Definition modes : list Mode := [(THash, true); (THash, false); (TTree, true); (TTree, false); (TLog, true); (TLog, false)].
Definition mode_parse (t : bytes) : option Mode := find (fun m => beqb (mode_text m) t) modes.
Definition TREE_DESC : Mode := (TTree, false).
(** core/src/query.rs:127-135 [mode], [get_mode] *)
Definition query_mode (q : TQuery) : outcome QErr (option Mode) :=
  obind (get_option q (str "mode")) (fun o =>
  match o with
  | Some (Some t) => match mode_parse t with Some m => Ok (Some m) | None => Err QText end
  | _ => Ok None
  end).
Definition get_mode (q : TQuery) : outcome QErr Mode := obind (query_mode q) (fun o => Ok (match o with Some m => m | None => TREE_DESC end)).
Definition mode_eqb (a b : option Mode) : bool :=
  match a, b with
  | None, None => true
  | Some x, Some y => beqb (mode_text x) (mode_text y)
  | _, _ => false
  end.
(** watch.rs:87-102 [CLIQuery::into_query], without printing; [m] is --mode, which clap sets to tree-desc
    when it is not given (:82). *)
Definition into_query (fuel : nat) (s : scope) (now : N) (m : option Mode) (c : CliOpts) : outcome CliErr TQuery :=
  obind (opts_query fuel s now c) (fun q =>
  match query_mode q with
  | Ok im => Ok (if match im with None => true | _ => false end || negb (mode_eqb im m)
                 then add_option q (str "mode") [mode_text (match m with Some m => m | None => TREE_DESC end)] else q)
  | Err e => Err (CStmt e) | Panic => Panic | OutOfFuel => OutOfFuel
  end).
(** watch.rs:118-119 [watch]: the query that is watched *)
Definition watched_query (q : TQuery) : TQuery := add_option q (str "qid") [str "<cli>"].
