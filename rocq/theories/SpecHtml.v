(** Reading html, and what the printed packet must be, independent of the functions of ModelHtml. *)
From Verif Require Import Bytes SpecSpace ModelPkt ModelAbe ModelFmt.

(** ** Tags and text.  A part of the tokenization of the HTML standard (13.2.5): everything that is read here as some tokens is read so
    there; [None] for what is not part of it (unquoted values, comments, stray characters in tags, an unfinished tag). *)
Inductive tok := Text (t : bytes) | Open (name : bytes) (attrs : list (bytes * bytes)) | Close (name : bytes).
Inductive mode :=
| MText (t : bytes) | MLt | MName (n : bytes) | MClose (n : bytes)
| MBefore (n : bytes) (l : list (bytes * bytes)) | MAttr (n : bytes) (l : list (bytes * bytes)) (a : bytes) | MEq (n : bytes) (l : list (bytes * bytes)) (a : bytes)
| MVal (q : N) (n : bytes) (l : list (bytes * bytes)) (a v : bytes) | MAfter (n : bytes) (l : list (bytes * bytes)) | MBad.
Definition white (c : N) : bool := existsb (N.eqb c) [32; 10; 9; 12; 13].
Definition letter (c : N) : bool := (65 <=? c) && (c <=? 90) || (97 <=? c) && (c <=? 122).
(** characters in the names of tags and attributes *)
Definition name_char (c : N) : bool := letter c || (48 <=? c) && (c <=? 57) || (c =? 45).
Definition text (t : bytes) : list tok := match t with [] => [] | _ => [Text t] end.
Definition step (s : list tok * mode) (c : N) : list tok * mode :=
  let '(out, m) := s in
  match m with
  | MText t => if c =? 60 then (out ++ text t, MLt) else (out, MText (t ++ [c]))
  | MLt => if c =? 47 then (out, MClose []) else if letter c then (out, MName [c]) else (out, MBad)
  | MName n => if white c then (out, MBefore n []) else if c =? 62 then (out ++ [Open n []], MText []) else if name_char c then (out, MName (n ++ [c])) else (out, MBad)
  | MClose n => if (c =? 62) && negb (beqb n []) then (out ++ [Close n], MText []) else if name_char c then (out, MClose (n ++ [c])) else (out, MBad)
  | MBefore n l => if white c then (out, MBefore n l) else if c =? 62 then (out ++ [Open n l], MText []) else if name_char c then (out, MAttr n l [c]) else (out, MBad)
  | MAttr n l a => if c =? 61 then (out, MEq n l a) else if name_char c then (out, MAttr n l (a ++ [c])) else (out, MBad)
  | MEq n l a => if (c =? 39) || (c =? 34) then (out, MVal c n l a []) else (out, MBad)
  | MVal q n l a v => if c =? q then (out, MAfter n (l ++ [(a, v)])) else (out, MVal q n l a (v ++ [c]))
  | MAfter n l => if white c then (out, MBefore n l) else if c =? 62 then (out ++ [Open n l], MText []) else (out, MBad)
  | MBad => (out, MBad)
  end.
Definition tokens (b : bytes) : option (list tok) :=
  match fold_left step b ([], MText []) with (out, MText t) => Some (out ++ text t) | _ => None end.
(** every element is closed, in order *)
Fixpoint nested (stack : list bytes) (l : list tok) : Prop :=
  match l with
  | [] => stack = []
  | Text _ :: r => nested stack r
  | Open n _ :: r => nested (n :: stack) r
  | Close n :: r => match stack with [] => False | m :: s => m = n /\ nested s r end
  end.
(** what is left of the tokens without text and values *)
Inductive bone := BOpen (n : bytes) (attrs : list bytes) | BClose (n : bytes).
Definition skeleton (l : list tok) : list bone :=
  flat_map (fun t => match t with Text _ => [] | Open n a => [BOpen n (map fst a)] | Close n => [BClose n] end) l.

(** ** Character references in text (13.2.5.72-73): the longest name of the table; [refs] is the table, names without the `&`. *)
Inductive shows (refs : list (bytes * bytes)) : bytes -> bytes -> Prop :=
| SNil : shows refs [] []
| SChar c t s : c <> 38 -> shows refs t s -> shows refs (c :: t) (c :: s)
| SRef n v t s : In (n, v) refs -> (forall n' v' t', In (n', v') refs -> n ++ t = n' ++ t' -> (List.length n' <= List.length n)%nat) -> shows refs t s -> shows refs (38 :: n ++ t) (v ++ s)
| SAmp t s : (forall n v t', In (n, v) refs -> t <> n ++ t') -> shows refs t s -> shows refs (38 :: t) (38 :: s).
(** A table in which these three names need no semicolon. *)
Definition legacy (refs : list (bytes * bytes)) : Prop :=
  NoDup (map fst refs) /\ In (str "amp", [38]) refs /\ In (str "lt", [60]) refs /\ In (str "gt", [62]) refs /\
  forall n v, In (n, v) refs -> n <> [] /\ Forall (fun c => letter c || (48 <=? c) && (c <=? 57) || (c =? 59) = true) n.
(** no special character is followed by a letter, a digit or a semicolon *)
Definition separated (t : bytes) : Prop := forall a x y b, t = a ++ x :: y :: b -> In x [38; 60; 62] -> letter y || (48 <=? y) && (y <=? 57) || (y =? 59) = false.

(** ** The elements *)
Definition elem (n : bytes) (attrs : list (bytes * bytes)) (inner : list tok) : list tok := Open n attrs :: inner ++ [Close n].
(** the element showing 32 bytes *)
Definition b64_elem (class b shown : bytes) : list tok :=
  elem (str "span") [(str "lk-" ++ class, b64_display b); (str "class", str "lk-b64 lk-c" ++ to_string (nth 14 b 0 / 16) ++ str " lk-d" ++ to_string (nth 15 b 0 / 16))] (text shown).
(** how 32 bytes are shown *)
Definition label (public test b : bytes) : bytes :=
  if beqb b (repeat 0 32) then str "[#:0]" else if beqb b public then str "[#:pub]" else if beqb b test then str "[#:test]" else mini_b64 b.
(** the text of other bytes, as abtxt and with the special characters as references *)
Definition quoted (t : bytes) : bytes := flat_map (fun c => if c =? 38 then str "&amp" else if c =? 60 then str "&lt" else if c =? 62 then str "&gt" else [c]) t.
Fixpoint comp_elems (i : N) (cs : list bytes) : list tok :=
  match cs with
  | [] => []
  | c :: r => elem (str "li") [(str "lk-space" ++ to_string i, b64_display c)] (text (quoted (as_abtxt c))) ++ comp_elems (i + 1) r
  end.
Definition number_elem (a : bytes) (n : N) : list tok := elem (str "span") [(a, to_string n)] (text (to_string n)).
(** A packet as it is printed: [hp_link] is the group, the domain, the creation time, the key, the components of the space and the links. *)
Record printed := mkPrinted {
  hp_hash : bytes; hp_type : N; hp_depth : N; hp_data : bytes;
  hp_link : option (bytes * bytes * N * option bytes * bytes * list bytes * list (bytes * bytes)) }.
Definition page (public test : bytes) (shown : option bytes) (p : printed) : list tok :=
  let b64 c b := b64_elem (str c) b (label public test b) in
  let key := match hp_link p with Some (_, _, _, k, _, _, _) => k | None => None end in
  let ls := match hp_link p with Some (_, _, _, _, _, _, l) => l | None => [] end in
  elem (str "div")
    ([(str "lk-point", b64_display (hp_hash p)); (str "lk-ptype", to_string (hp_type p)); (str "class", str "lk-c" ++ to_string (nth 0 (hp_hash p) 0 / 16))] ++
     match key with Some k => [(str "lk-pubkey", b64_display k)] | None => [] end ++
     [(str "lk-data-size", to_string (lenN (hp_data p))); (str "lk-links-len", to_string (lenN ls)); (str "lk-depth", to_string (hp_depth p))])
    (b64 "hash"%string (hp_hash p) ++
     match hp_link p with
     | None => []
     | Some (g, d, t, _, sp, cs, _) =>
         match key with Some k => b64 "pubkey"%string k | None => [] end ++
         elem (str "span") [(str "lk-domain", b64_display d)] (text (quoted (as_abtxt (cut_prefix_nulls d)))) ++
         b64 "group"%string g ++ number_elem (str "lk-create") t ++ number_elem (str "lk-depth") (hp_depth p) ++
         elem (str "ol") [(str "lk-space", b64_display sp); (str "lk-depth", to_string (hp_depth p))] (Text [10] :: comp_elems 0 cs) ++ [Text [10]] ++
         number_elem (str "lk-links-len") (lenN ls) ++
         elem (str "ol") [(str "lk-links", to_string (lenN ls))] (Text [10] :: flat_map (fun '(tag, ptr) =>
           elem (str "li") [(str "lk-link-tag", b64_display tag)]
             (elem (str "span") [(str "lk-tag", b64_display tag)] (text (quoted (as_abtxt (cut_prefix_nulls tag)))) ++ b64 "ptr"%string ptr) ++ [Text [10]]) ls)
     end ++
     number_elem (str "lk-data-size") (lenN (hp_data p)) ++ [Text [10]] ++
     match shown with Some t => elem (str "pre") [(str "lk-data", to_string (lenN (hp_data p)))] (text (quoted t)) | None => [] end).

(** The packet [p], whose space has the components [cs]. *)
Definition space_of (rs : bytes) (cs : list bytes) : Prop := rs = [] /\ cs = [] \/ 8 <= lenN rs /\ is_space (dropN 8 rs) cs.
Definition link_ok (l : bytes * bytes) : Prop := bytes_ok (fst l) /\ bytes_ok (snd l).
Definition lp_ok (lp : LinkPoint) (cs : list bytes) : Prop :=
  bytes_ok (group (ModelPkt.head lp)) /\ bytes_ok (domain (ModelPkt.head lp)) /\ bytes_ok (rspace (ModelPkt.tail lp)) /\ Forall link_ok (links (ModelPkt.tail lp)) /\ space_of (rspace (ModelPkt.tail lp)) cs.
Definition fields_ok (f : PointFields) (cs : list bytes) : Prop :=
  match f with FLink lp => lp_ok lp cs | FKey lp s => lp_ok lp cs /\ bytes_ok (s_pubkey s) | _ => cs = [] end.
Definition lp_view (lp : LinkPoint) (key : option bytes) (cs : list bytes) :=
  (group (ModelPkt.head lp), domain (ModelPkt.head lp), create_stamp (ModelPkt.head lp), key, dropN 8 (rspace (ModelPkt.tail lp)), cs, links (ModelPkt.tail lp)).
Definition printed_as (p : NetPktParts) (cs : list bytes) : printed :=
  let t := point_type (pkt_header (point_parts p)) in
  match fields (point_parts p) with
  | FData d | FError d | FUnknown d => mkPrinted (np_hash p) t 0 d None
  | FLink lp => mkPrinted (np_hash p) t (hd 0 (rspace (ModelPkt.tail lp))) (tdata (ModelPkt.tail lp)) (Some (lp_view lp None cs))
  | FKey lp s => mkPrinted (np_hash p) t (hd 0 (rspace (ModelPkt.tail lp))) (tdata (ModelPkt.tail lp)) (Some (lp_view lp (Some (s_pubkey s)) cs))
  end.
(** Packets of the same kind, with as many links and as many components. *)
Definition same_shape (p q : printed) : Prop :=
  match hp_link p, hp_link q with
  | None, None => True
  | Some (_, _, _, k, _, cs, l), Some (_, _, _, k', _, cs', l') => (k = None <-> k' = None) /\ List.length cs = List.length cs' /\ List.length l = List.length l'
  | _, _ => False
  end.
Definition same_but_data (p q : printed) : Prop :=
  hp_hash p = hp_hash q /\ hp_type p = hp_type q /\ hp_depth p = hp_depth q /\ lenN (hp_data p) = lenN (hp_data q) /\ hp_link p = hp_link q.
(** What the text form of a packet says: the fields of a packet without them are zero. *)
Definition told (p : printed) : bytes * bytes * N * bytes * bytes * list (bytes * bytes) :=
  match hp_link p with
  | None => (repeat 0 32, repeat 0 16, 0, repeat 0 32, [], [])
  | Some (g, d, t, k, sp, _, ls) => (g, d, t, match k with Some k => k | None => repeat 0 32 end, sp, ls)
  end.
Definition kind (t : N) : N := if existsb (N.eqb t) [1; 3; 7; 128] then t else 0.
Definition sizes_ok (p : printed) : Prop :=
  match hp_link p with None => True | Some (_, d, _, _, _, cs, ls) => lenN d = 16 /\ lenN cs <= 8 /\ Forall (fun l => lenN (fst l) = 16) ls end.
