(** Evaluation of ABE expressions: crates/abe/src/eval.rs. Functions that evaluate get the whole
    scope, so the evaluator is given to them as an argument; the recursion is bounded by fuel, and
    running out of it is its own outcome. *)
From Verif Require Export Bytes ModelAbe ModelFmt.

(** ** Lists of components, eval.rs:46-276 *)
(** eval.rs:51-52 *)
Definition ABLV : Type := (option Ctr * bytes)%type.
Definition ABList : Type := list ABLV.
(** eval.rs:28-31 *)
Inductive ABItem := ICtr (c : Ctr) | IBytes (b : bytes).
(** eval.rs:20-26 *)
Definition ctr_str (c : option Ctr) : bytes := match c with Some c => [ctr_char c] | None => [] end.
(** eval.rs:181-187 *)
Fixpoint push_bytes (l : ABList) (b : bytes) : ABList :=
  match l with
  | [] => [(None, b)]
  | [(c, x)] => [(c, x ++ b)]
  | y :: r => y :: push_bytes r b
  end.
(** eval.rs:188-191 *)
Definition push_ctr (l : ABList) (c : Ctr) : ABList := l ++ [(Some c, [])].
(** eval.rs:175-180 *)
Definition push_item (l : ABList) (i : ABItem) : ABList := match i with ICtr c => push_ctr l c | IBytes b => push_bytes l b end.
(** eval.rs:199-205 [as_exact_bytes] *)
Definition as_exact_bytes (l : ABList) : option bytes :=
  match l with [] => Some [] | [(None, b)] => Some b | _ => None end.
(** eval.rs:213-227 [concat] *)
Definition abl_concat (l : ABList) : bytes := flat_map (fun '(c, b) => ctr_str c ++ b) l.
(** eval.rs:238-253 [split_fslash] *)
Definition starts_fslash (l : ABList) : bool := match l with (Some CFSlash, _) :: _ => true | _ => false end.
Fixpoint split_fslash (l : ABList) : list ABList :=
  match l with
  | [] => []
  | x :: r =>
      let gs := split_fslash r in
      if starts_fslash r then [x] :: gs else match gs with g :: gs' => (x :: g) :: gs' | [] => [[x]] end
  end.

(** ** Scopes, eval.rs:301-306 and 445-746 *)
(** [ApplyResult]: no value, a value, or an error, whose text is left out. *)
Definition ar : Type := outcome unit (option bytes).
(** eval.rs:419-430 *)
Inductive EvalError := NoSuchSubEval (id : bytes) | SubEval (id : bytes) | NoSuchFunc (id : bytes) | FuncErr (id : bytes) | EvalOther.
(** What functions and macros see of the scope they run in: evaluation in it, its encoders, and evaluation
    with some functions in front of it, which must not need a scope themselves. *)
Record context := {
  c_eval : list ABE -> outcome EvalError ABList;
  c_enc : bytes -> list ABE -> bytes -> ar;
  c_with : (bytes -> list bytes -> bool -> ar) -> list ABE -> outcome EvalError ABList }.
(** eval.rs:445-460 *)
Record scope := {
  sc_func : context -> bytes -> list bytes -> bool -> ar;
  sc_macro : context -> bytes -> list ABE -> ar;
  sc_enc : bytes -> list ABE -> bytes -> ar }.
(** eval.rs:525-538 *)
Record sfunc := {
  f_id : bytes; f_init : option bool; f_lo : N; f_hi : N;
  f_apply : context -> list bytes -> bool -> ar;
  f_enc : option (bytes -> list ABE -> ar) }.
Definition find_func (id : bytes) (fs : list sfunc) : option sfunc := find (fun f => beqb (f_id f) id) fs.
(** eval.rs:464-511 [EScope] *)
Definition escope (fs : list sfunc) (ms : list (bytes * (context -> list ABE -> ar))) : scope := {|
  sc_func := fun ctx id inp init =>
    match find_func id fs with
    | None => Ok None
    | Some f =>
        if match f_init f with Some i => negb (Bool.eqb i init) | None => false end then Err tt
        else if (lenN inp <? f_lo f) || (f_hi f <? lenN inp) then Err tt
        else f_apply f ctx inp init
    end;
  sc_macro := fun ctx id l =>
    match find (fun m => beqb (fst m) id) ms with None => Ok None | Some m => snd m ctx l end;
  sc_enc := fun id opts b =>
    match find (fun f => beqb (f_id f) id && match f_enc f with Some _ => true | None => false end) fs with
    | Some f => match f_enc f with Some e => e b opts | None => Ok None end
    | None => Ok None
    end |}.
(** eval.rs:332-338 [or_else] *)
Definition or_else (x : ar) (y : ar) : ar := match x with Ok None => y | _ => x end.
(** eval.rs:693-746: a tuple of scopes *)
Definition spair (a b : scope) : scope := {|
  sc_func := fun ctx id inp init => or_else (sc_func a ctx id inp init) (sc_func b ctx id inp init);
  sc_macro := fun ctx id l => or_else (sc_macro a ctx id l) (sc_macro b ctx id l);
  sc_enc := fun id o b' => or_else (sc_enc a id o b') (sc_enc b id o b') |}.
(** a scope of functions only *)
Definition sfuncs (g : bytes -> list bytes -> bool -> ar) : scope :=
  {| sc_func := fun _ => g; sc_macro := fun _ _ _ => Ok None; sc_enc := fun _ _ _ => Ok None |}.
(** eval.rs:549-571: no scope *)
Definition snone : scope := {| sc_func := fun _ _ _ _ => Ok None; sc_macro := fun _ _ _ => Ok None; sc_enc := fun _ _ _ => Ok None |}.

(** ** Evaluation, eval.rs:807-947 *)
(** eval.rs:1083-1098 [dump_abe_bytes] *)
Fixpoint dump1 (e : ABE) : bytes :=
  match e with ACtr c => [ctr_char c] | ABytes b => b | ALst l => 91 :: flat_map dump1 l ++ [93] end.
Definition dump_abe_bytes (l : list ABE) : bytes := flat_map dump1 l.
(** eval.rs:858-875 [call] *)
Definition call (s : scope) (ctx : context) (id : bytes) (args : list bytes) (init : bool) : outcome EvalError bytes :=
  match sc_func s ctx id (if init then tl args else args) init with
  | Ok (Some b) => Ok b
  | Ok None => Err (NoSuchFunc id)
  | Err _ => Err (FuncErr id)
  | Panic => Panic
  | OutOfFuel => OutOfFuel
  end.
(** eval.rs:876-904: the calls of one bracket; at most 16 components in each. *)
Fixpoint run_calls (s : scope) (ctx : context) (gs : list ABList) (carry : bytes) : outcome EvalError bytes :=
  match gs with
  | [] => Ok carry
  | g :: rest =>
      if 16 <? lenN g then Err EvalOther
      else match g with
           | [] => run_calls s ctx rest carry
           | (Some CColon, _) :: _ => run_calls s ctx rest (List.concat (map snd g))
           | (c, id) :: args =>
               obind (call s ctx id (carry :: map snd args) (match c with None => true | _ => false end)) (run_calls s ctx rest)
           end
  end.
(** eval.rs:823-851: the bracket starts with a slash. *)
Definition run_macro (s : scope) (ctx : context) (tail : list ABE) : outcome EvalError bytes :=
  let apply id rest :=
    match sc_macro s ctx id rest with
    | Ok None => Err (NoSuchSubEval id)
    | Ok (Some b) => Ok b
    | Err _ => Err (SubEval id)
    | Panic => Panic
    | OutOfFuel => OutOfFuel
    end in
  match tail with
  | [] => Err EvalOther
  | ALst _ :: _ => Err EvalOther
  | ACtr CColon :: rest => Ok (dump_abe_bytes rest)
  | ACtr CFSlash :: _ => apply [] tail
  | ABytes id :: r => apply id r
  end.
Definition is_expr (e : ABE) : bool := match e with ACtr _ => false | _ => true end.
(** eval.rs:807-905 [match_expr], where [ev] evaluates a list one level deeper *)
Definition match_expr (s : scope) (ctx : context) (e : ABE) : outcome EvalError ABItem :=
  match e with
  | ACtr c => Ok (ICtr c)
  | ABytes b => Ok (IBytes b)
  | ALst ls =>
      let inner :=
        match ls with
        | ACtr CFSlash :: tail => None
        | ALst _ :: _ => Some (Err EvalOther)
        | [x; y] => if is_expr x && is_expr y then Some (Err EvalOther) else Some (c_eval ctx ls)
        | _ => Some (c_eval ctx ls)
        end in
      match inner with
      | None => obind (run_macro s ctx (tl ls)) (fun b => Ok (IBytes b))
      | Some r => obind r (fun abl => obind (run_calls s ctx (split_fslash abl) []) (fun b => Ok (IBytes b)))
      end
  end.
(** eval.rs:921-947 [_eval]; the items are pushed in order, the first error ends it. *)
Fixpoint eval_items (s : scope) (ctx : context) (l : list ABE) (acc : ABList) : outcome EvalError ABList :=
  match l with
  | [] => Ok acc
  | e :: r => obind (match_expr s ctx e) (fun i => eval_items s ctx r (push_item acc i))
  end.
Fixpoint eval (fuel : nat) (s : scope) (l : list ABE) : outcome EvalError ABList :=
  match fuel with
  | O => OutOfFuel
  | S f => eval_items s {| c_eval := eval f s; c_enc := sc_enc s; c_with := fun g => eval f (spair (sfuncs g) s) |} l []
  end.
Definition ctx_of (fuel : nat) (s : scope) : context :=
  {| c_eval := eval fuel s; c_enc := sc_enc s; c_with := fun g => eval fuel (spair (sfuncs g) s) |}.

(** ** Encoding, eval.rs:949-1000 *)
Inductive EncodeError := OptionError | ParseError | ScopeEncode (id : bytes) | NoneFound.
(** [slice::split]: at least one piece *)
Fixpoint split_on {A} (p : A -> bool) (l : list A) : list (list A) :=
  match l with
  | [] => [[]]
  | x :: r => match split_on p r with
              | g :: gs => if p x then [] :: g :: gs else (x :: g) :: gs
              | [] => [[x]]
              end
  end.
Definition abe_is (c : Ctr) (e : ABE) : bool := match e with ACtr d => ctr_eqb c d | _ => false end.
(** eval.rs:962-1000. The check that the result evaluates to the bytes is a debug assertion. *)
Definition encode_one (enc : bytes -> list ABE -> bytes -> ar) (b : bytes) (piece : list ABE) (ignore : bool)
    : outcome EncodeError (option bytes) :=
  let try_ id opts :=
    match enc id opts b with
    | Ok r => Ok r
    | Err _ => if ignore then Ok None else Err (ScopeEncode id)
    | Panic => Panic
    | OutOfFuel => OutOfFuel
    end in
  match piece with
  | [ACtr CColon] => try_ [] []
  | [] => Ok (Some (as_abtxt b))
  | [ABytes id] => try_ id []
  | ABytes id :: ACtr CColon :: rest => try_ id rest
  | _ => Err OptionError
  end.
Fixpoint encode_pieces (enc : bytes -> list ABE -> bytes -> ar) (b : bytes) (ps : list (list ABE)) (ignore : bool)
    : outcome EncodeError bytes :=
  match ps with
  | [] => Err NoneFound
  | p :: r => obind (encode_one enc b p ignore) (fun o => match o with Some t => Ok t | None => encode_pieces enc b r ignore end)
  end.
Definition encode_abe (enc : bytes -> list ABE -> bytes -> ar) (b : bytes) (opts : list ABE) (ignore : bool)
    : outcome EncodeError bytes :=
  encode_pieces enc b (match opts with [] => [] | _ => split_on (abe_is CFSlash) opts end) ignore.
(** eval.rs:953-961 *)
Definition encode (enc : bytes -> list ABE -> bytes -> ar) (b options : bytes) (ignore : bool) : outcome EncodeError bytes :=
  match parse_abe_strict options with
  | Ok l => encode_abe enc b l ignore
  | Err _ => Err ParseError
  | Panic => Panic
  | OutOfFuel => OutOfFuel
  end.

(** ** The API, linkspace/src/lib.rs:284-303, 366-388 and 1133-1151 *)
Inductive LkError := LkParse | LkEval (e : EvalError).
Definition lk_eval (fuel : nat) (s : scope) (t : bytes) (loose : bool) : outcome LkError bytes :=
  match parse_abe t loose with
  | Ok l => match eval fuel s l with Ok abl => Ok (abl_concat abl) | Err e => Err (LkEval e) | Panic => Panic | OutOfFuel => OutOfFuel end
  | Err _ => Err LkParse
  | Panic => Panic
  | OutOfFuel => OutOfFuel
  end.
Definition lk_try_encode (s : scope) (b options : bytes) (ignore : bool) : outcome EncodeError bytes := encode (sc_enc s) b options ignore.
Definition lk_encode (s : scope) (b options : bytes) : outcome EncodeError bytes :=
  match lk_try_encode s b options true with Err _ => Ok (as_abtxt b) | r => r end.
