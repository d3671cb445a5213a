(** * What reading data into points has to do, apart from the reader. *)
From Coq Require Import List NArith ZArith Bool.
From Verif Require Import Bytes ModelPkt ModelAbe ModelEval ModelReader SpecPkt.
Import ListNotations.
Local Open Scope N_scope.

(** [reading r fs bs r']: calls with the free spaces [fs] give the blocks [bs] and leave [r']. *)
Inductive reading (fuel : nat) (s : scope) : Reader -> list N -> list bytes -> Reader -> Prop :=
| reading_nil r : reading fuel s r [] [] r
| reading_cons r f b r1 fs bs r2 :
    read_next_data fuel s r f = (r1, Ok (Some b)) -> reading fuel s r1 fs bs r2 ->
    reading fuel s r (f :: fs) (b :: bs) r2.
(** The next call says that there is no more data. *)
Definition ended (fuel : nat) (s : scope) (r : Reader) (f : N) : Prop :=
  exists r', read_next_data fuel s r f = (r', Ok None).
(** The next call fails. *)
Definition fails_with (fuel : nat) (s : scope) (r : Reader) (f : N) (e : ReadError) : Prop :=
  exists r', read_next_data fuel s r f = (r', Err e).

(** The lines of a text: what stands before each delimiter, and what stands behind the last one
    unless that is nothing. *)
Inductive lines (d : N) : bytes -> list bytes -> Prop :=
| lines_nil : lines d [] []
| lines_last l : l <> [] -> ~ In d l -> lines d l [l]
| lines_more l t ls : ~ In d l -> lines d t ls -> lines d (l ++ d :: t) (l :: ls).

(** The bytes other than the delimiter. *)
Definition undelimited (delim : option N) (t : bytes) : bytes :=
  match delim with Some d => filter (fun b => negb (b =? d)) t | None => t end.

(** What a line stands for: itself, or the value of the expression it is. *)
Definition value_of (fuel : nat) (s : scope) (ev : bool) (l v : bytes) : Prop :=
  if ev then lk_eval fuel s l false = Ok v else v = l.

(** The most that is read at once. *)
Definition at_once (o : DataReadOpts) (free : N) : N :=
  match o_bufsize o with Some m => m | None => free end.
Definition mode_of (o : DataReadOpts) : EMode := match o_overflow o with Some m => m | None => MError end.
Definition limit_of (o : DataReadOpts) : N := match o_reads o with Some n => n | None => 2 ^ 64 - 1 end.

(** The first [n] free spaces. *)
Definition spaces (f : nat -> N) (n : nat) : list N := map f (seq 0 n).

(** The point with a block: signed over everything before the signature, or not. *)
Definition point_with (c : crypto) (g dm rspace : bytes) (key : option (skey c)) (stamp : nat -> N)
  (k : nat) (ls : list (bytes * bytes)) (b : bytes) : point :=
  match key with
  | None => PLink g dm (stamp k) ls rspace b
  | Some sk =>
      PKey g dm (stamp k) ls rspace b (pubkey_of c sk)
        (sign_hash c sk (hash c (unsigned_content (PKey g dm (stamp k) ls rspace b (pubkey_of c sk) []))))
  end.
(** Each point but the first has one more link, with the tag, to the one before it. *)
Fixpoint chain_of (hash : bytes -> bytes) (mk : nat -> list (bytes * bytes) -> bytes -> point)
  (ls : list (bytes * bytes)) (tag : option bytes) (k : nat) (prev : option point) (bs : list bytes) : list point :=
  match bs with
  | [] => []
  | b :: bs =>
      let more := match tag, prev with Some t, Some q => [(t, hash (content q))] | _, _ => [] end in
      let p := mk k (ls ++ more) b in
      p :: chain_of hash mk ls tag (S k) (Some p) bs
  end.
