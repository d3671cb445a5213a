(** Specification of queries as text: what the extended operators mean, which statements and
    options a query is made of, and what it is for two queries to be the same. *)
From Verif Require Import Bytes ModelTestSet SpecTestSet ModelPred SpecPred ModelQText.
From Verif Require SpecAbe SpecSpace.

(** ** Statements on numeric fields *)
(** The text of an operator. *)
Definition op_text (o : ExtOp) : bytes :=
  match o with
  | GreaterEq => str ">=" | LessEq => str "<=" | HeadMask => str "=*" | TailMask => str "*="
  | Op Nop => str "?" | Op Equal => str "=" | Op Less => str "<" | Op Greater => str ">" | Op Mask0 => str "0" | Op Mask1 => str "1"
  end.
(** The value [x] of a field of [k] bytes, compared with the operand [b]: numbers are written with
    the most significant byte first; [=*] and [*=] compare the first and the last bytes. *)
Definition ext_holds (k : nat) (o : ExtOp) (x : N) (b : bytes) : Prop :=
  match o with
  | GreaterEq => be_decode b <= x
  | LessEq => x <= be_decode b
  | HeadMask => exists t, be_encode k x = b ++ t
  | TailMask => exists t, be_encode k x = t ++ b
  | Op op => holds op x (be_decode b)
  end.
(** A statement: what it is about, the operator and the bytes of the operand. *)
Definition stmt : Type := (RuleType * ExtOp * bytes)%type.
Definition size_of (k : RuleType) : nat :=
  match k with RField f => N.to_nat (field_width f / 8) | RRecv => 8 | RPrefix => 0 | RLimit _ => 4 end.
Definition stmt_sat (hash : bytes -> bytes) (recv : N) (nh : bytes) (p : SpecPkt.point) (s : stmt) : Prop :=
  let '(k, o, b) := s in
  match k with
  | RField f => exists x, num_field hash f nh p = Some x /\ ext_holds (size_of k) o x b
  | RRecv => ext_holds (size_of k) o recv b
  | RLimit _ => True
  | RPrefix => False
  end.
Definition stmt_position (q : QScope) (n : N) (s : stmt) : Prop :=
  let '(k, o, b) := s in
  match k, o with
  | RLimit q', _ => q' = q -> ext_holds 4 o n b
  | RField PktHashF, Op Equal => q = QQuery -> n = 0
  | _, _ => True
  end.
(** The operand has the size of the field, or for the partial comparisons at most that; domains may
    be shorter in any case. *)
Definition operand_fits (k : RuleType) (o : ExtOp) (b : bytes) : Prop :=
  match o with
  | HeadMask | TailMask => (List.length b <= size_of k)%nat
  | _ => List.length b = size_of k \/ k = RField DomainF /\ (0 < List.length b <= 16)%nat
  end.
(** [>=] the smallest and [<=] the greatest value that the bytes of the operand can have. *)
Definition vacuous (o : ExtOp) (b : bytes) : Prop :=
  match o with
  | GreaterEq => Forall (eq 0) b
  | LessEq => Forall (eq 255) b
  | _ => False
  end.
Definition stmt_ok (s : stmt) : Prop :=
  let '(k, o, b) := s in
  bytes_ok b /\ operand_fits k o b /\
  match k with
  | RField f => num_kind f /\ ~ vacuous o b
  | RRecv => match o with HeadMask | TailMask | Op Mask0 | Op Mask1 => False | _ => True end
  | RPrefix => False
  | RLimit _ => True
  end.
(** Adding the statements one by one to a query. *)
Fixpoint push_all (q : TQuery) (l : list stmt) : outcome QErr TQuery :=
  match l with [] => Ok q | (k, o, b) :: r => obind (lk_query_push q (rule_name k) (op_text o) b) (fun q' => push_all q' r) end.
(** ... and as text, one per line. *)
Definition stmt_line (s : stmt) : bytes := let '(k, o, b) := s in rule_name k ++ str ":" ++ op_text o ++ str ":" ++ as_abtxt b ++ [10].

(** ** Options: a list of components that all start with a delimiter. *)
Definition option_ok (l : ABList) : Prop := l <> [] /\ Forall (fun c => fst c <> None /\ bytes_ok (snd c)) l.
(** No order predicates on the hash. *)
Definition hash_unordered (rs : list Predicate) : Prop :=
  Forall (fun r => p_kind r = RField PktHashF -> p_op r <> Less /\ p_op r <> Greater) rs.
(** The operands of space predicates are bytes. *)
Definition pred_bytes (r : Predicate) : Prop := match p_val r with PSpace sp => bytes_ok sp | _ => True end.
(** Bytes that are written as they are, after bytes 0 or bytes 255 in front. *)
Definition padded_plain (b : bytes) : Prop := exists f n t, (f = 0 \/ f = 255) /\ b = repeat f n ++ t /\ Forall SpecAbe.plain t.
(** The predicates on domains give one such domain, and the components of 16 bytes in predicates on spaces are such. *)
Definition plain_pred (r : Predicate) : Prop :=
  match p_kind r, p_val r with
  | RField DomainF, PNum n => p_op r = Equal /\ padded_plain (be_encode 16 n)
  | _, PSpace sp => forall cs, SpecSpace.space_ok cs -> sp = SpecSpace.wire_space cs -> Forall (fun c => lenN c = 16 -> padded_plain c) cs
  | _, _ => True
  end.
