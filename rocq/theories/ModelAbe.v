(** Model of ABE text: crates/abe/src/{abtxt,ast}.rs. A text is a list of bytes; the printed
    ones are ASCII. *)
From Coq Require Export String Ascii.
From Verif Require Import Bytes.
Open Scope list_scope.

(** The bytes of a literal of the code. *)
Definition str (s : string) : bytes := map N_of_ascii (list_ascii_of_string s).
Arguments str s%string.

(** abtxt.rs:18-28; the texts of the errors are left out. *)
Inductive ABTxtError := EFit | EParse (byte idx : N) | EInvalidHex.
(** abtxt.rs:30-58 [CtrChar], [as_char], and the values of the enum. *)
Inductive CtrChar := ForwardSlash | Colon | Newline | OpenBracket | CloseBracket.
Definition as_char (k : CtrChar) : N :=
  match k with ForwardSlash => 47 | Colon => 58 | Newline => 10 | OpenBracket => 91 | CloseBracket => 93 end.
Definition ctr_bit (k : CtrChar) : N :=
  match k with ForwardSlash => 1 | Colon => 2 | Newline => 4 | OpenBracket => 16 | CloseBracket => 32 end.
(** abtxt.rs:60-62 *)
Definition is_bracket (k : CtrChar) : bool := match k with OpenBracket | CloseBracket => true | _ => false end.
(** abtxt.rs:70-77 *)
Inductive Byte := Finished | BCtr (kind : CtrChar) (rest : bytes) | BByte (byte : N) (rest : bytes).
Definition STD_PLAIN_CSET : N := 0.
Definition STD_ERR_CSET : N := ctr_bit Newline.

(** abtxt.rs:188-209 [hex_byte]. *)
Definition hex_digit (b : N) : option N :=
  if (48 <=? b) && (b <=? 57) then Some (b - 48)
  else if (97 <=? b) && (b <=? 102) then Some (10 + (b - 97))
  else if (65 <=? b) && (b <=? 70) then Some (10 + (b - 65))
  else None.
Definition hex_byte (s : bytes) : outcome ABTxtError N :=
  match s with
  | b0 :: b1 :: _ =>
      match hex_digit b0, hex_digit b1 with
      | Some h, Some l => Ok (16 * h + l)
      | _, _ => Err EInvalidHex
      end
  | _ => Err EInvalidHex
  end.
(** abtxt.rs:104-116: the characters after a backslash, except x. *)
Definition unescape (s : N) : option N :=
  if s =? 93 then Some 93 else if s =? 91 then Some 91 else if s =? 110 then Some 10
  else if s =? 114 then Some 13 else if s =? 58 then Some 58 else if s =? 116 then Some 9
  else if s =? 92 then Some 92 else if s =? 47 then Some 47 else if s =? 48 then Some 0
  else if s =? 102 then Some 255 else None.
(** abtxt.rs:40-49 [try_from_char], the same table as in [next_byte]. *)
Definition ctr_of (b : N) : option CtrChar :=
  if b =? 47 then Some ForwardSlash else if b =? 91 then Some OpenBracket else if b =? 93 then Some CloseBracket
  else if b =? 58 then Some Colon else if b =? 10 then Some Newline else None.
(** abtxt.rs:78-130 [next_byte]. *)
Definition next_byte (t : bytes) (idx plain_cset err_cset : N) : outcome ABTxtError Byte :=
  match t with
  | [] => Ok Finished
  | b :: rest =>
      match ctr_of b with
      | Some k =>
          if negb (N.land err_cset (ctr_bit k) =? 0) then Err (EParse b idx)
          else if negb (N.land plain_cset (ctr_bit k) =? 0) then Ok (BByte b rest)
          else Ok (BCtr k rest)
      | None =>
          if b =? 92 then
            match rest with
            | [] => Err (EParse b idx)
            | s :: rest' =>
                if s =? 120 then obind (hex_byte rest') (fun v => Ok (BByte v (dropN 2 rest')))
                else match unescape s with Some v => Ok (BByte v rest') | None => Err (EParse b idx) end
            end
          else if (b =? 9) || (b =? 13) then Err (EParse b idx)
          else if (32 <=? b) && (b <=? 126) then Ok (BByte b rest)
          else Err (EParse b idx)
      end
  end.
(** abtxt.rs:132-173 [parse_abtxt]; [max] is the limit, or the size of the destination of
    [parse_abtxt_into]. Each round consumes a byte: [fuel] is the length of the text. *)
Fixpoint parse_loop (fuel : nat) (len : N) (rest : bytes) (max : option N) (out : bytes) : outcome ABTxtError bytes :=
  match fuel with
  | O => OutOfFuel
  | S f =>
      let idx := len - lenN rest in
      obind (next_byte rest idx STD_PLAIN_CSET STD_ERR_CSET) (fun nb =>
      match nb with
      | Finished => Ok out
      | BByte b tail =>
          match max with
          | Some m => if m <=? lenN out then Err EFit else parse_loop f len tail max (out ++ [b])
          | None => parse_loop f len tail max (out ++ [b])
          end
      | BCtr k _ => Err (EParse (as_char k) idx)
      end)
  end.
Definition parse_abtxt (t : bytes) (max : option N) : outcome ABTxtError bytes :=
  parse_loop (S (List.length t)) (lenN t) t max [].
(** abtxt.rs:178-186 *)
Definition parse_abtxt_upto_max (t : bytes) (max : N) : outcome ABTxtError bytes := parse_abtxt t (Some max).
(** abtxt.rs:175-177: the destination has [size] bytes; the written ones are returned. *)
Definition parse_abtxt_into (t : bytes) (size : N) : outcome ABTxtError bytes := parse_abtxt t (Some size).

(** abtxt.rs:210-217 [hex_lookup]. *)
Definition hex_char (n : N) : N := if n <? 10 then 48 + n else 87 + n.
Definition hex_lookup (b : N) : bytes := [92; 120; hex_char (b / 16); hex_char (b mod 16)].
(** abtxt.rs:241-285 [ESCAPE_LOOKUP], [escape_default]. *)
Definition escape_default (b : N) : bytes :=
  if b =? 0 then [92; 48] else if b =? 255 then [92; 102] else if b =? 10 then [92; 110]
  else if b =? 9 then [92; 116] else if b =? 13 then [92; 114] else if b =? 58 then [92; 58]
  else if b =? 92 then [92; 92] else if b =? 47 then [92; 47] else if b =? 91 then [92; 91]
  else if b =? 93 then [92; 93] else if (32 <=? b) && (b <=? 126) then [b] else hex_lookup b.
(** abtxt.rs:287-296 [as_abtxt]; when no byte needs escaping the code returns the bytes
    themselves, which is the same text. *)
Definition escaped_byte (b : N) : bool := 1 <? lenN (escape_default b).
Definition as_abtxt (b : bytes) : bytes :=
  if forallb (fun v => negb (escaped_byte v)) b then b else flat_map escape_default b.

(** ** Expressions *)
(** ast.rs:17-34; [Expr] is written out. *)
Inductive Ctr := CColon | CFSlash.
Inductive ABE := ACtr (c : Ctr) | ABytes (b : bytes) | ALst (l : list ABE).
(** ast.rs:325-329 *)
Definition ctr_char (c : Ctr) : N := match c with CColon => 58 | CFSlash => 47 end.
(** ast.rs:312-319, 354-370 [Display]. *)
Fixpoint print1 (e : ABE) : bytes :=
  match e with
  | ACtr c => [ctr_char c]
  | ABytes b => flat_map escape_default b
  | ALst l => 91 :: flat_map print1 l ++ [93]
  end.
(** ast.rs:626-628 *)
Definition print_abe (l : list ABE) : bytes := flat_map print1 l.

(** ast.rs:376-385 *)
Inductive ASTParseError := EAB (e : ABTxtError) | EUnmatchedClose | EUnmatchedOpen.
(** ast.rs:394-398 *)
Inductive ABTok := TBytes (b : bytes) | TCtr (k : CtrChar).
(** ast.rs:399-420 [collect], called until it returns None: the items and the tokens left. *)
Fixpoint take_bytes (ts : list ABTok) : bytes * list ABTok :=
  match ts with
  | TBytes o :: r => let '(b, r') := take_bytes r in (o ++ b, r')
  | _ => ([], ts)
  end.
Fixpoint collect (fuel : nat) (ts : list ABTok) : outcome ASTParseError (list ABE * list ABTok) :=
  match fuel with
  | O => OutOfFuel
  | S f =>
      match ts with
      | [] => Ok ([], [])
      | TCtr CloseBracket :: r => Ok ([], r)
      | TCtr Colon :: r => obind (collect f r) (fun '(l, r') => Ok (ACtr CColon :: l, r'))
      | TCtr ForwardSlash :: r => obind (collect f r) (fun '(l, r') => Ok (ACtr CFSlash :: l, r'))
      | TCtr OpenBracket :: r =>
          obind (collect f r) (fun '(inner, r1) =>
          obind (collect f r1) (fun '(l, r2) => Ok (ALst inner :: l, r2)))
      | TCtr Newline :: _ => Panic
      | TBytes b :: r =>
          let '(b', r1) := take_bytes r in
          obind (collect f r1) (fun '(l, r2) => Ok (ABytes (b ++ b') :: l, r2))
      end
  end.
Definition flush (r : list ABTok) (bytes_ : bytes) : list ABTok := match bytes_ with [] => r | _ => r ++ [TBytes bytes_] end.
(** ast.rs:446-453, 498-507: the end of the text. *)
Definition finish (depth : N) (r : list ABTok) (bytes_ : bytes) : outcome ASTParseError (list ABE) :=
  if negb (depth =? 0) then Err EUnmatchedOpen
  else let ts := flush r bytes_ in obind (collect (S (List.length ts)) ts) (fun '(l, _) => Ok l).
(** ast.rs:457-465: the new depth. *)
Definition bracket_depth (k : CtrChar) (depth : N) : option N :=
  match k with
  | OpenBracket => Some (depth + 1)
  | CloseBracket => if depth =? 0 then None else Some (depth - 1)
  | _ => Some depth
  end.
(** ast.rs:437-477 [parse_abe_strict_b], and 480-530 [parse_abe_with_unencoded_b] when
    [lenient]: bytes that can not be read are taken as they are. *)
Fixpoint abe_loop (lenient : bool) (fuel : nat) (len : N) (todo : bytes) (depth : N) (r : list ABTok) (bytes_ : bytes)
  : outcome ASTParseError (list ABE) :=
  match fuel with
  | O => OutOfFuel
  | S f =>
      match next_byte todo (len - lenN todo) STD_PLAIN_CSET STD_ERR_CSET with
      | Ok Finished => finish depth r bytes_
      | Ok (BCtr k rest) =>
          match bracket_depth k depth with
          | None => Err EUnmatchedClose
          | Some d => abe_loop lenient f len rest d (flush r bytes_ ++ [TCtr k]) []
          end
      | Ok (BByte b rest) => abe_loop lenient f len rest depth r (bytes_ ++ [b])
      | Err (EParse b i) =>
          if lenient then abe_loop lenient f len (dropN 1 todo) depth r (bytes_ ++ [b]) else Err (EAB (EParse b i))
      | Err e => Err (EAB e)
      | Panic => Panic
      | OutOfFuel => OutOfFuel
      end
  end.
Definition parse_abe_strict (t : bytes) : outcome ASTParseError (list ABE) :=
  abe_loop false (S (List.length t)) (lenN t) t 0 [] [].
Definition parse_abe_unencoded (t : bytes) : outcome ASTParseError (list ABE) :=
  abe_loop true (S (List.length t)) (lenN t) t 0 [] [].
(** ast.rs:425-434 *)
Definition parse_abe (t : bytes) (parse_unencoded : bool) : outcome ASTParseError (list ABE) :=
  if parse_unencoded then parse_abe_unencoded t else parse_abe_strict t.

(** ast.rs:564-624 [tokenize_abe_b] collected up to the first error: the components as the
    delimiter before them (0 for the first), whether they have brackets, and their text
    [cur], which is [st[start_comp..at]]. *)
Fixpoint tok_loop (fuel : nat) (plain err : N) (len : N) (todo : bytes) (depth head : N) (inner : bool) (cur : bytes)
  : outcome ASTParseError (list (N * bool * bytes)) :=
  match fuel with
  | O => OutOfFuel
  | S f =>
      let eaten rest := cur ++ takeN (lenN todo - lenN rest) todo in
      match next_byte todo (len - lenN todo) plain err with
      | Ok Finished => if negb (depth =? 0) then Err EUnmatchedOpen else Ok [(head, inner, cur)]
      | Ok (BCtr k rest) =>
          if (depth =? 0) && negb (is_bracket k) then
            match rest with
            | [] => Ok [(head, inner, cur)]
            | _ => obind (tok_loop f plain err len rest depth (as_char k) false []) (fun l => Ok ((head, inner, cur) :: l))
            end
          else
            match bracket_depth k depth with
            | None => Err EUnmatchedClose
            | Some d => tok_loop f plain err len rest d head true (eaten rest)
            end
      | Ok (BByte _ rest) => tok_loop f plain err len rest depth head inner (eaten rest)
      | Err e => Err (EAB e)
      | Panic => Panic
      | OutOfFuel => OutOfFuel
      end
  end.
Definition tokenize_abe (t : bytes) (plain err : N) : outcome ASTParseError (list (N * bool * bytes)) :=
  match t with [] => Ok [] | _ => tok_loop (S (List.length t)) plain err (lenN t) t 0 0 false [] end.

(** abtxt.rs [CtrChar::try_from_char] and linkspace/src/lib.rs:315-330 [lk_tokenize_abe]: the
    delimiters named in [exclude] are folded with exclusive or. The model gives the components the
    callback is given while it answers true. *)
Definition plain_of (exclude : bytes) : N :=
  fold_left (fun a b => match ctr_of b with Some k => N.lxor a (ctr_bit k) | None => a end) exclude 0.
Definition lk_tokenize_abe (t exclude : bytes) : outcome ASTParseError (list (N * bool * bytes)) :=
  tokenize_abe t (plain_of exclude) 0.

(** ast.rs:630-643 [replace_abe]: where [pattern] first occurs, then splice. [windows] panics
    on an empty pattern. *)
Definition ctr_eqb (a b : Ctr) : bool := match a, b with CColon, CColon | CFSlash, CFSlash => true | _, _ => false end.
Fixpoint abe_eqb (a b : ABE) : bool :=
  match a, b with
  | ACtr x, ACtr y => ctr_eqb x y
  | ABytes x, ABytes y => beqb x y
  | ALst x, ALst y =>
      (fix eq (x y : list ABE) : bool :=
         match x, y with [], [] => true | a :: x', b :: y' => abe_eqb a b && eq x' y' | _, _ => false end) x y
  | _, _ => false
  end.
Fixpoint abe_prefix (l p : list ABE) : bool :=
  match p, l with [], _ => true | a :: p', b :: l' => abe_eqb a b && abe_prefix l' p' | _, [] => false end.
Fixpoint splice_all (fuel : nat) (l pattern new : list ABE) : list ABE :=
  match fuel, l with
  | O, _ => l
  | S _, [] => []
  | S f, a :: r =>
      if abe_prefix l pattern then new ++ splice_all f (dropN (lenN pattern) l) pattern new
      else a :: splice_all f r pattern new
  end.
Fixpoint replace1 (e : ABE) (pattern new : list ABE) : ABE :=
  match e with
  | ALst l => let l' := map (fun x => replace1 x pattern new) l in ALst (splice_all (S (List.length l')) l' pattern new)
  | _ => e
  end.
Definition replace_abe (l pattern new : list ABE) : outcome ASTParseError (list ABE) :=
  match pattern with
  | [] => Panic
  | _ => let l' := map (fun x => replace1 x pattern new) l in Ok (splice_all (S (List.length l')) l' pattern new)
  end.
