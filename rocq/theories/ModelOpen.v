(** Opening a linkspace: crates/common/src/static_env.rs and crates/linkspace/src/lib.rs [lk_open].  Several threads of one
    process take turns; an opening that has to open the database is two turns, since the map of open databases is read under
    one lock and written under another. *)
From Verif Require Import Bytes.

(** An open database ([BTreeEnv]): which session it is, and the directory it was opened at *)
Record Env := mkEnv { env_id : N; env_dir : N }.
(** A runtime ([Linkspace]): which it is, and its database *)
Record Rt := mkRt { rt_id : N; rt_env : Env }.
(** What is called: lib.rs:780-787 [lk_open] or static_env.rs:78-85 [get_lk] *)
Inductive Kind := LkOpen | GetLk.
Record Call := mkCall { c_kind : Kind; c_dir : option bytes; c_create : bool }.
(** A thread: the call waiting to open the database at a directory, static_env.rs:19-20 [LINKSPACE] and
    crates/linkspace/src/lib.rs:782 [LK_EVAL_SCOPE_RT], both local to the thread *)
Record Thr := mkThr { t_wait : option (Call * bytes * N); t_lk : option Rt; t_eval : option Rt }.
(** The process: the directories made so far, static_env.rs:17 [ENVS], the number of the next session or runtime, the threads *)
Record St := mkSt { s_made : list bytes; s_envs : list (N * Env); s_next : N; s_thr : N -> Thr }.
(** An [io::Error], or the runtime *)
Inductive Res := RErr | ROk (r : Rt).

Section Open.
  (** The file system: the directory at a path once the directories listed were made, in the order made last first
      ([same_file::Handle::from_path]), and whether [create_dir_all] succeeds *)
  Variable handle_of : list bytes -> bytes -> option N.
  Variable makes : list bytes -> bytes -> bool.
  (** crates/core/src/env/lmdb/mod.rs:44-65 [BTreeEnv::open]: whether it succeeds; its panics count as failing *)
  Variable opens : list bytes -> bytes -> bool -> bool.
  (** $LK_DIR and $HOME *)
  Variable lk_dir_var home : option bytes.

  (** [PathBuf::join("linkspace")] *)
  Definition join_linkspace (h : bytes) : bytes :=
    let name := [108;105;110;107;115;112;97;99;101] in
    match rev h with [] => name | c :: _ => if c =? 47 then h ++ name else h ++ 47 :: name end.
  (** static_env.rs:46-57 [lk_dir(None)] *)
  Definition lk_dir : option bytes :=
    match lk_dir_var with Some p => Some p | None => option_map join_linkspace home end.
  (** The state of one thread replaced *)
  Definition upd (f : N -> Thr) (t : N) (x : Thr) : N -> Thr := fun u => if u =? t then x else f u.
  (** [FxHashMap::get] and [insert], on the list of entries *)
  Fixpoint env_get (h : N) (l : list (N * Env)) : option Env :=
    match l with [] => None | (k, e) :: l => if k =? h then Some e else env_get h l end.
  Definition env_insert (h : N) (e : Env) (l : list (N * Env)) : list (N * Env) := (h, e) :: l.

  (** static_env.rs:71-74 and lib.rs:782-786: a new runtime on the database; kept if it is the thread's first *)
  Definition finish (s : St) (t : N) (c : Call) (e : Env) : St * Res :=
    let r := mkRt (s_next s) e in
    let th := s_thr s t in
    let lk := match t_lk th with Some x => Some x | None => Some r end in
    let ev := match c_kind c with LkOpen => match t_eval th with Some x => Some x | None => Some r end | GetLk => t_eval th end in
    (mkSt (s_made s) (s_envs s) (s_next s + 1) (upd (s_thr s) t (mkThr None lk ev)), ROk r).
  (** the thread waits for the database to be opened *)
  Definition wait (s : St) (t : N) (c : Call) (p : bytes) (h : N) : St :=
    mkSt (s_made s) (s_envs s) (s_next s) (upd (s_thr s) t (mkThr (Some (c, p, h)) (t_lk (s_thr s t)) (t_eval (s_thr s t)))).
  (** static_env.rs:22-38 [get_env] up to reading the map *)
  Definition look (s : St) (t : N) (c : Call) (p : bytes) : St * option Res :=
    let go s h := match env_get h (s_envs s) with
                  | Some e => let '(s, r) := finish s t c e in (s, Some r)
                  | None => (wait s t c p h, None)
                  end in
    match handle_of (s_made s) p with
    | Some h => go s h
    | None =>
        if c_create c then
          if makes (s_made s) p then
            let s := mkSt (p :: s_made s) (s_envs s) (s_next s) (s_thr s) in
            match handle_of (s_made s) p with Some h => go s h | None => (s, Some RErr) end
          else (s, Some RErr)
        else (s, Some RErr)
    end.
  (** static_env.rs:60-70 [open_linkspace_dir] and 78-85 [get_lk], up to reading the map.  [None]: not done yet *)
  Definition call (s : St) (t : N) (c : Call) : St * option Res :=
    let open_dir := match (match c_dir c with Some p => Some p | None => lk_dir end) with
                    | Some p => look s t c p
                    | None => (s, Some RErr)
                    end in
    match c_kind c with
    | LkOpen => open_dir
    | GetLk => match t_lk (s_thr s t) with Some r => (s, Some (ROk r)) | None => open_dir end
    end.
  (** static_env.rs:39-44 the rest of [get_env]: open the database and put it in the map *)
  Definition resume (s : St) (t : N) : St * option Res :=
    let th := s_thr s t in
    match t_wait th with
    | None => (s, None)
    | Some (c, p, h) =>
        if opens (s_made s) p (c_create c) then
          let e := mkEnv (s_next s) h in
          let '(s, r) := finish (mkSt (s_made s) (env_insert h e (s_envs s)) (s_next s + 1) (s_thr s)) t c e in (s, Some r)
        else (mkSt (s_made s) (s_envs s) (s_next s) (upd (s_thr s) t (mkThr None (t_lk th) (t_eval th))), Some RErr)
    end.
  (** A turn of a thread: it goes on with the call it is waiting in, or begins one.  The results come with the thread and the call *)
  Inductive Turn := Begin (t : N) (c : Call) | Resume (t : N).
  Definition turn (s : St) (x : Turn) : St * list (N * Call * Res) :=
    match x with
    | Begin t c => match t_wait (s_thr s t) with
                   | Some _ => (s, [])
                   | None => match call s t c with (s, Some r) => (s, [(t, c, r)]) | (s, None) => (s, []) end
                   end
    | Resume t => match t_wait (s_thr s t) with
                  | None => (s, [])
                  | Some (c, _, _) => match resume s t with (s, Some r) => (s, [(t, c, r)]) | (s, None) => (s, []) end
                  end
    end.
  Fixpoint run (s : St) (xs : list Turn) : St * list (N * Call * Res) :=
    match xs with
    | [] => (s, [])
    | x :: xs => let '(s, a) := turn s x in let '(s, b) := run s xs in (s, a ++ b)
    end.
  (** The process at its start *)
  Definition start : St := mkSt [] [] 0 (fun _ => mkThr None None None).
  (** One thread at a time: every call is done before the next begins *)
  Definition one_by_one (cs : list (N * Call)) : list Turn := flat_map (fun '(t, c) => [Begin t c; Resume t]) cs.
End Open.
