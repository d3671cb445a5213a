(** Specification of the queries of the command line: what the arguments ask for. *)
From Verif Require Import Bytes SpecSpace SpecPkt ModelTestSet SpecTestSet ModelPred SpecPred ModelAbe SpecAbe ModelEval SpecEval ModelQuery ModelQText SpecQText SpecStamp.
From Verif Require Import ModelCliQuery.

(** A text without delimiters outside of brackets, and its value. *)
Definition expr_text (s : scope) (t v : bytes) : Prop :=
  exists l, denotes t l /\ l <> [] /\ Forall (fun e => forall c, e <> ACtr c) l /\ evaluates_abe s l v.
(** The text of a component: one byte string or one bracket. *)
Definition comp_text (s : scope) (t c : bytes) : Prop :=
  exists e, denotes t [e] /\ (forall c, e <> ACtr c) /\ evaluates_abe s [e] c.
(** How many more components there may be *)
Inductive limit_text : bytes -> N -> Prop :=
| lt_none : limit_text [] 0
| lt_digit k : k <= 8 -> limit_text [48 + k] k
| lt_star : limit_text (str "*") 1
| lt_all : limit_text (str "**") 8.
(** The argument domain:group:space:depth, where the last parts may be left out. *)
Definition arg_text (t d g sp lim : bytes) : Prop :=
  t = d ++ 58 :: g ++ 58 :: sp ++ 58 :: lim \/
  lim = [] /\ (t = d ++ 58 :: g ++ 58 :: sp \/ sp = [] /\ (t = d ++ 58 :: g \/ g = [] /\ t = d)).
(** The domain, group, components and number of further components that it asks for; [dom] and [grp] are the defaults. *)
Definition dgs_text (s : scope) (dom grp t : bytes) (r : bytes * bytes * list bytes * N) : Prop :=
  let '(D, G, cs, k) := r in
  exists td tg ts lim dv,
    arg_text t td tg (flat_map (fun c => 47 :: c) ts) lim /\
    (td = [] /\ dv = dom /\ padded_plain dom \/ expr_text s td dv) /\ (0 < List.length dv <= 16)%nat /\ bytes_ok dv /\ D = repeat 0 (16 - List.length dv) ++ dv /\
    (tg = [] /\ G = grp \/ expr_text s tg G) /\ List.length G = 32%nat /\ bytes_ok G /\
    Forall2 (comp_text s) ts cs /\ space_ok cs /\ Forall bytes_ok cs /\ (List.length cs <= 8)%nat /\
    limit_text lim k.
(** What is asked for: the part above; the stamp before which packets are received; only points with or without signature; limits. *)
Record request := mkReq {
  r_dgs : option (bytes * bytes * list bytes * N); r_until : option N; r_signed : bool; r_unsigned : bool;
  r_max : QScope -> option N; r_never : QScope -> bool; r_stmts : list stmt; r_qid : option bytes; r_follow : bool }.
(** The arguments ask for it. [now] is the clock. *)
Definition asks (s : scope) (dom grp : bytes) (now : N) (c : CliOpts) (r : request) : Prop :=
  let a := c_aliases c in
  match r_dgs r with
  | None => c_dgpd c = None
  | Some x => exists t e, dgs_text s dom grp t x /\ parse_dgpd dom grp t = Ok e /\ c_dgpd c = Some e
  end /\
  match r_until r, a_until a with
  | None, None => True
  | Some u, Some v => exists d, hd 0 v <> 43 /\ duration units v d /\ u = now + d /\ u <= last_stamp
  | _, _ => False
  end /\
  r_signed r = a_signed a /\ r_unsigned r = a_unsigned a /\ r_follow r = a_follow a /\
  r_max r QQuery = a_max a /\ r_max r QNew = a_max_new a /\ r_max r QIndex = a_max_index a /\ r_max r QBranch = a_max_branch a /\
  (forall q n, r_max r q = Some n -> n < 2 ^ 32) /\
  r_never r QQuery = false /\ r_never r QNew = a_db_only a /\ r_never r QIndex = a_new_only a /\ r_never r QBranch = false /\
  match a_qid a, r_qid r with
  | Some l, Some v => l <> [] /\ Forall (fun e => forall c, e <> ACtr c) l /\ evaluates_abe s l v
  | None, Some v => a_watch a = true /\ v = str "default"
  | None, None => a_watch a = false
  | Some _, None => False
  end /\
  Forall stmt_ok (r_stmts r) /\
  Forall2 (fun e '(k, o, b) => exists n, forall fuel, (n <= fuel)%nat ->
             eval fuel s e = Ok [(None, rule_name k); (Some CColon, op_text o); (Some CColon, b)]) (c_exprs c) (r_stmts r).
(** Depth and options of a point. *)
Definition point_domain (p : point) : option bytes := match p with PLink _ d _ _ _ _ | PKey _ d _ _ _ _ _ _ => Some d | _ => None end.
Definition point_group (p : point) : option bytes := match p with PLink g _ _ _ _ _ | PKey g _ _ _ _ _ _ _ => Some g | _ => None end.
(** The packets asked for. *)
Definition wanted (hash : bytes -> bytes) (recv : N) (nh : bytes) (p : point) (r : request) : Prop :=
  match r_dgs r with
  | None => True
  | Some (D, G, cs, k) =>
      point_domain p = Some D /\ point_group p = Some G /\
      exists rs more, point_rspace p = Some rs /\ has_space rs (cs ++ more) /\ N.of_nat (List.length cs) <= declared_depth rs /\
        (k < 8 -> declared_depth rs <= N.min 8 (N.of_nat (List.length cs) + k))
  end /\
  match r_until r with None => True | Some u => recv < u end /\
  (r_signed r = true -> match p with PKey _ _ _ _ _ _ _ _ => True | _ => False end) /\
  (r_unsigned r = true -> match p with PData _ | PLink _ _ _ _ _ _ => True | _ => False end) /\
  Forall (stmt_sat hash recv nh p) (r_stmts r).
(** The positions asked for. *)
Definition in_limits (r : request) (q : QScope) (n : N) : Prop :=
  match r_max r q with None => True | Some m => n < m end /\ r_never r q = false /\ Forall (stmt_position q n) (r_stmts r).
Definition nowhere (r : request) (q : QScope) : Prop := forall n, n < 2 ^ 32 -> ~ in_limits r q n.
