(** Model of the files of an instance.
    Source: crates/common/src/eval/file.rs, [files] of crates/common/src/runtime/rx.rs; std::path and std::fs
    (library 1.7x, unix) and the path lookup of the kernel as far as they are used.
    Not modelled: symbolic links, permissions, limits of names and disks, other processes. *)
From Verif Require Import Bytes ModelAbe ModelEval ModelFn ModelKey.

(** ** The file system: what is at a path of names from the root *)
Inductive entry := Dir | File (b : bytes).
Definition fs := list bytes -> option entry.
Fixpoint path_eqb (a b : list bytes) : bool :=
  match a, b with [], [] => true | x :: a', y :: b' => beqb x y && path_eqb a' b' | _, _ => false end.
Definition put (m : fs) (p : list bytes) (e : entry) : fs := fun q => if path_eqb p q then Some e else m q.
Inductive errno := ENOENT | ENOTDIR | EISDIR | EEXIST | EINVAL.

(** The kernel's lookup of the parts of a path, from the directory [cur] *)
Definition DOT : bytes := [46].
Definition DOTDOT : bytes := [46; 46].
Definition step (cur : list bytes) (g : bytes) : list bytes :=
  if beqb g [] || beqb g DOT then cur else if beqb g DOTDOT then removelast cur else cur ++ [g].
Fixpoint walk (m : fs) (cur : list bytes) (gs : list bytes) : outcome errno (list bytes) :=
  match gs with
  | [] => Ok cur
  | g :: r => match m cur with Some Dir => walk m (step cur g) r | Some (File _) => Err ENOTDIR | None => Err ENOENT end
  end.
(** std::fs::read of an absolute path; a zero byte is refused before the call. *)
Definition has_nul (t : bytes) : bool := existsb (fun c => c =? 0) t.
Definition read_file (m : fs) (t : bytes) : outcome errno bytes :=
  if has_nul t then Err EINVAL
  else obind (walk m [] (split_on 47 t)) (fun p => match m p with Some (File b) => Ok b | Some Dir => Err EISDIR | None => Err ENOENT end).
(** OpenOptions of an absolute path with create and truncate, or create_new, then write_all *)
Definition is_name (g : bytes) : bool := negb (beqb g [] || beqb g DOT || beqb g DOTDOT).
Definition write_file (m : fs) (t : bytes) (b : bytes) (create_new : bool) : fs * option errno :=
  if has_nul t then (m, Some EINVAL)
  else
    let gs := split_on 47 t in
    match walk m [] (removelast gs) with
    | Ok d =>
        match m d with
        | Some Dir =>
            if is_name (last gs []) then
              match m (d ++ [last gs []]) with
              | None => (put m (d ++ [last gs []]) (File b), None)
              | Some _ =>
                  if create_new then (m, Some EEXIST)
                  else match m (d ++ [last gs []]) with Some Dir => (m, Some EISDIR) | _ => (put m (d ++ [last gs []]) (File b), None) end
              end
            else (m, Some EISDIR)
        | Some (File _) => (m, Some ENOTDIR)
        | None => (m, Some ENOENT)
        end
    | Err e => (m, Some e)
    | _ => (m, Some EINVAL)
    end.

(** ** std::path::Path *)
Inductive component := RootDir | CurDir | ParentDir | Normal (n : bytes).
Definition seg_component (g : bytes) : list component :=
  if beqb g [] || beqb g DOT then [] else if beqb g DOTDOT then [ParentDir] else [Normal g].
Definition components (t : bytes) : list component :=
  (match t with 47 :: _ => [RootDir] | _ => if beqb (hd [] (split_on 47 t)) DOT then [CurDir] else [] end) ++ flat_map seg_component (split_on 47 t).
(** [join]; an absolute path takes the place of the other. *)
Definition path_join (a b : bytes) : bytes :=
  match b with 47 :: _ => b | _ => match a with [] => b | _ => if last a 0 =? 47 then a ++ b else a ++ [47] ++ b end end.

(** std::fs::create_dir_all of the absolute path with these names, last one first. The text of the path has the
    same names (its lookup passes the same directories), so mkdir(2) takes the names. *)
Definition mkdir (m : fs) (ns : list bytes) : fs * option errno :=
  if existsb has_nul ns then (m, Some EINVAL)
  else match ns with
       | [] => (m, Some EEXIST)
       | _ => match walk m [] (removelast ns) with
              | Ok d => match m d with
                        | Some Dir => match m ns with Some _ => (m, Some EEXIST) | None => (put m ns Dir, None) end
                        | Some (File _) => (m, Some ENOTDIR)
                        | None => (m, Some ENOENT)
                        end
              | Err e => (m, Some e)
              | _ => (m, Some EINVAL)
              end
       end.
Definition is_dir (m : fs) (ns : list bytes) : bool :=
  if existsb has_nul ns then false
  else match walk m [] ns with Ok p => match m p with Some Dir => true | _ => false end | _ => false end.
Fixpoint create_dir_all (m : fs) (rns : list bytes) : fs * option errno :=
  match mkdir m (rev rns) with
  | (m', None) => (m', None)
  | (_, Some ENOENT) =>
      match rns with
      | [] => (m, Some ENOENT)
      | _ :: r =>
          match create_dir_all m r with
          | (m', Some e) => (m', Some e)
          | (m', None) => match mkdir m' (rev rns) with
                          | (m'', None) => (m'', None)
                          | (_, Some e) => if is_dir m' (rev rns) then (m', None) else (m', Some e)
                          end
          end
      end
  | (_, Some e) => if is_dir m (rev rns) then (m, None) else (m, Some e)
  end.

(** ** crates/common/src/eval/file.rs *)
Inductive FileError := BadComponent (c : component) | Io (e : errno).
(** file.rs:87-95 *)
Definition is_normal (c : component) : bool := match c with Normal _ => true | _ => false end.
Definition check_path (t : bytes) : outcome FileError bytes :=
  match find (fun c => negb (is_normal c)) (components t) with Some c => Err (BadComponent c) | None => Ok t end.
(** rx.rs:83: the directory of the files, for the canonical path of the instance with these names. *)
Definition files_dir (loc : list bytes) : bytes := path_join (match loc with [] => [47] | _ => flat_map (fun n => 47 :: n) loc end) (str "files").
(** file.rs:72-85 *)
Definition files_data (m : fs) (loc : list bytes) (t : bytes) (notfound_err : bool) : outcome FileError (option bytes) :=
  obind (check_path t) (fun t =>
  match read_file m (path_join (files_dir loc) t) with
  | Ok b => Ok (Some b)
  | Err ENOENT => if notfound_err then Err (Io ENOENT) else Ok None
  | Err e => Err (Io e)
  | _ => Err (Io EINVAL)
  end).
(** file.rs:45-69; [parent] leaves out the last component. *)
Definition names_of (cs : list component) : list bytes := flat_map (fun c => match c with Normal n => [n] | _ => [] end) cs.
Definition set_files_data (m : fs) (loc : list bytes) (t b : bytes) (overwrite : bool) : fs * outcome FileError unit :=
  match check_path t with
  | Ok t =>
      let p := path_join (files_dir loc) t in
      match create_dir_all m (rev (names_of (removelast (components p)))) with
      | (m', Some e) => (m', Err (Io e))
      | (m', None) => match write_file m' p b (negb overwrite) with (m'', None) => (m'', Ok tt) | (m'', Some e) => (m'', Err (Io e)) end
      end
  | Err e => (m, Err e)
  | _ => (m, Err (Io EINVAL))
  end.
(** file.rs:26-41 *)
Definition files_fe (m : fs) (loc : list bytes) : list sfunc := [
  fn (str "files") 1 1 (fun i =>
    if negb (is_utf8 (arg 0 i)) then fails
    else match files_data m loc (arg 0 i) true with Ok (Some b) => val b | Ok None => Panic | Err _ => fails | Panic => Panic | OutOfFuel => OutOfFuel end) ].
