(** What ABE text means, stated as grammars (docs of crates/abe, guide): independent of the
    functions of ModelAbe, only its types are used. *)
From Verif Require Import Bytes ModelAbe.

(** ** Bytes as text *)
(** The characters that stand for themselves. *)
Definition special : bytes := str "\/[]:".
Definition plain (c : N) : Prop := 32 <= c <= 126 /\ ~ In c special.
(** A backslash and one character. *)
Definition escapes : list (N * N) :=
  [(110, 10); (114, 13); (116, 9); (48, 0); (102, 255); (92, 92); (47, 47); (91, 91); (93, 93); (58, 58)].
Definition hex_value (c v : N) : Prop :=
  nth_error (str "0123456789abcdef") (N.to_nat v) = Some c \/ nth_error (str "0123456789ABCDEF") (N.to_nat v) = Some c.
(** The text [u] is one byte [v]. *)
Inductive reads1 : bytes -> N -> Prop :=
| reads_plain c : plain c -> reads1 [c] c
| reads_escape e v : In (e, v) escapes -> reads1 [92; e] v
| reads_hex h l a b : hex_value h a -> hex_value l b -> reads1 [92; 120; h; l] (16 * a + b).
(** The text [t] is the bytes [b]. *)
Inductive reads : bytes -> bytes -> Prop :=
| reads_nil : reads [] []
| reads_cons u v t b : reads1 u v -> reads t b -> reads (u ++ t) (v :: b).
(** Printable, and every special character is preceded by a backslash. *)
Inductive escaped : bytes -> Prop :=
| escaped_nil : escaped []
| escaped_plain c t : plain c -> escaped t -> escaped (c :: t)
| escaped_pair c t : 32 <= c <= 126 -> escaped t -> escaped (92 :: c :: t).

(** ** Expressions as text *)
Definition not_bytes (l : list ABE) : Prop := match l with ABytes _ :: _ => False | _ => True end.
Definition delim (c : Ctr) : N := match c with CColon => 58 | CFSlash => 47 end.
Inductive denotes : bytes -> list ABE -> Prop :=
| denotes_nil : denotes [] []
| denotes_ctr c t l : denotes t l -> denotes (delim c :: t) (ACtr c :: l)
| denotes_lst t1 t2 l1 l2 : denotes t1 l1 -> denotes t2 l2 -> denotes (91 :: t1 ++ 93 :: t2) (ALst l1 :: l2)
| denotes_bytes t1 b t2 l : b <> [] -> reads t1 b -> not_bytes l -> denotes t2 l -> denotes (t1 ++ t2) (ABytes b :: l).
(** No empty byte strings and no two in a row. *)
Inductive normal : list ABE -> Prop :=
| normal_nil : normal []
| normal_ctr c l : normal l -> normal (ACtr c :: l)
| normal_lst l1 l2 : normal l1 -> normal l2 -> normal (ALst l1 :: l2)
| normal_bytes b l : b <> [] -> bytes_ok b -> not_bytes l -> normal l -> normal (ABytes b :: l).
(** Any expression can be made normal by joining neighbouring byte strings. *)
Definition join_bytes (e : ABE) (l : list ABE) : list ABE :=
  match e, l with
  | ABytes [], _ => l
  | ABytes b, ABytes b' :: r => ABytes (b ++ b') :: r
  | _, _ => e :: l
  end.
Fixpoint norm1 (e : ABE) : ABE :=
  match e with ALst l => ALst (fold_right (fun x acc => join_bytes (norm1 x) acc) [] l) | _ => e end.
Definition norm (l : list ABE) : list ABE := fold_right (fun x acc => join_bytes (norm1 x) acc) [] l.
(** Its byte strings hold bytes. *)
Fixpoint abe_ok (e : ABE) : Prop :=
  match e with
  | ACtr _ => True
  | ABytes b => bytes_ok b
  | ALst l => (fix all l := match l with [] => True | x :: r => abe_ok x /\ all r end) l
  end.
Definition abes_ok (l : list ABE) : Prop := Forall abe_ok l.

(** ** Top level components *)
(** The delimiters, those in [skip] stand for themselves. *)
Definition delims (c : N) : Prop := In c (str ":/") \/ c = 10.
Definition separator (skip : list N) (c : N) : Prop := delims c /\ ~ In c skip.
Definition unit_text (skip : list N) (u : bytes) : Prop :=
  (exists v, reads1 u v) \/ (exists c, u = [c] /\ In c skip /\ (delims c \/ c = 91 \/ c = 93)).
(** [t] runs from within [d] brackets to the end of the component; [i]: there are brackets. *)
Inductive component (skip : list N) : N -> bytes -> bool -> Prop :=
| comp_end : component skip 0 [] false
| comp_unit d u t i : unit_text skip u -> component skip d t i -> component skip d (u ++ t) i
| comp_inner d c t i : d <> 0 -> separator skip c -> component skip d t i -> component skip d (c :: t) true
| comp_open d t i : ~ In 91 skip -> component skip (d + 1) t i -> component skip d (91 :: t) true
| comp_close d t i : d <> 0 -> ~ In 93 skip -> component skip (d - 1) t i -> component skip d (93 :: t) true.
(** The components after the first, with their delimiter. *)
Definition tail_text (l : list (N * bool * bytes)) : bytes := flat_map (fun '(c, _, t) => c :: t) l.
Definition join (l : list (N * bool * bytes)) : bytes :=
  match l with [] => [] | (_, _, t) :: r => t ++ tail_text r end.
Definition components (skip : list N) (l : list (N * bool * bytes)) : Prop :=
  match l with
  | [] => False
  | (c, i, t) :: r => c = 0 /\ component skip 0 t i /\
                      Forall (fun '(c, i, t) => separator skip c /\ component skip 0 t i) r
  end.
(** The set of delimiters as [tokenize_abe] takes it. *)
Definition cset (skip : list N) (p : N) : Prop :=
  forall k, negb (N.land p (ctr_bit k) =? 0) = true <-> In (as_char k) skip.

(** ** Replacement: occurrences of [pat] found from the left, without overlap. *)
Inductive replaced (pat new : list ABE) : list ABE -> list ABE -> Prop :=
| repl_nil : replaced pat new [] []
| repl_hit l r : replaced pat new l r -> replaced pat new (pat ++ l) (new ++ r)
| repl_miss a l r : ~ (exists rest, a :: l = pat ++ rest) -> replaced pat new l r -> replaced pat new (a :: l) (a :: r).
(** Inner lists first. *)
Inductive replaced1 (pat new : list ABE) : ABE -> ABE -> Prop :=
| rep_ctr c : replaced1 pat new (ACtr c) (ACtr c)
| rep_bytes b : replaced1 pat new (ABytes b) (ABytes b)
| rep_lst l l' l'' : Forall2 (replaced1 pat new) l l' -> replaced pat new l' l'' -> replaced1 pat new (ALst l) (ALst l'').
