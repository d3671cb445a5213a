(** C95: the destinations of packets. *)
From Verif Require PropsPkt SpecPkt ProofPred PropsPred.
From Verif Require Import ProofAbe ProofAbe2 PropsAbe.
From Verif Require Import Bytes ModelPkt ModelAbe SpecAbe ModelEval ModelFn ModelStore ModelCliQuery ModelDest SpecDest.
Local Open Scope N_scope.

Lemma reads_plain_text t : Forall plain t -> reads t t.
Proof. induction 1 as [|c t P F IH]; [constructor|]. exact (reads_cons [c] c t t (reads_plain c P) IH). Qed.
Definition plainb (c : N) : bool := (32 <=? c) && (c <=? 126) && negb (existsb (N.eqb c) special).
Lemma plainb_ok c : plainb c = true -> plain c.
Proof.
  unfold plainb. rewrite !andb_true_iff, !N.leb_le. intros [[A B] C]. split; [lia|]. intros I. apply negb_true_iff in C.
  assert (existsb (N.eqb c) special = true) as X; [|congruence]. apply existsb_exists. exists c. split; [exact I|apply N.eqb_refl].
Qed.
Lemma plain_str t : forallb plainb t = true -> Forall plain t.
Proof. intros H. apply Forall_forall. intros c I. apply plainb_ok. rewrite forallb_forall in H. auto. Qed.
(** A name followed by a colon and an expression. *)
Lemma named n t l : n <> [] -> Forall plain n -> denotes t l -> denotes (n ++ str ":" ++ t) (ABytes n :: ACtr CColon :: l).
Proof. intros N F D. apply denotes_bytes; [exact N|now apply reads_plain_text|exact I|]. exact (denotes_ctr CColon t l D). Qed.
Lemma name_only n : n <> [] -> Forall plain n -> denotes n [ABytes n].
Proof. intros N F. rewrite <- (app_nil_r n) at 1. apply denotes_bytes; [exact N|now apply reads_plain_text|exact I|constructor]. Qed.
Lemma to_colon_one l : one_piece l -> to_colon l = (l, None).
Proof.
  induction l as [|e l IH]; intros O; [reflexivity|]. cbn [to_colon]. rewrite IH by (intros I; apply O; now right).
  destruct e as [[|]| |]; try reflexivity. exfalso. apply O. now left.
Qed.
Lemma to_colon_two l r : one_piece l -> to_colon (l ++ ACtr CColon :: r) = (l, Some r).
Proof.
  induction l as [|e l IH]; intros O; [reflexivity|]. cbn [app to_colon]. rewrite IH by (intros I; apply O; now right).
  destruct e as [[|]| |]; try reflexivity. exfalso. apply O. now left.
Qed.
Lemma denotes_app_ctr t1 l1 c t2 l2 : denotes t1 l1 -> denotes t2 l2 -> denotes (t1 ++ delim c :: t2) (l1 ++ ACtr c :: l2).
Proof.
  intros D1 D2. induction D1 as [|c' t l D IH|ta tb la lb DA IA DB IB|ta b tb l NB R NL D IH].
  - now constructor.
  - cbn [app]. now constructor.
  - cbn [app]. replace (ta ++ 93 :: tb) with (ta ++ 93 :: tb) by reflexivity. rewrite <- app_assoc. cbn [app]. now constructor.
  - rewrite <- app_assoc. cbn [app]. constructor; [exact NB|exact R| |exact IH]. destruct l; [exact I|exact NL].
Qed.

(** ** The names *)
(** A name alone, and with -expr and an expression, for every scope. *)
Theorem C95_names n k fuel s : In (n, k) dest_names -> exists d, parse_dest n = Ok d /\ d_prep d = None /\ open_dest (S fuel) s d = Ok k.
Proof.
  intros I. assert (n <> [] /\ Forall plain n) as [N F] by (destruct I as [E|[E|[E|[E|[E|[]]]]]]; injection E as <- <-; (split; [discriminate|apply plain_str; reflexivity])).
  unfold parse_dest. rewrite (proj2 (parse_denotes n [ABytes n]) (name_only n N F)).
  destruct I as [E|[E|[E|[E|[E|[]]]]]]; injection E as <- <-; eexists; (split; [reflexivity|]; split; reflexivity).
Qed.
(** Nothing may follow the name. *)
Theorem C95_name_alone n k t l : In (n, k) dest_names -> denotes t l -> parse_dest (n ++ str ":" ++ t) = Err DTail.
Proof.
  intros I D. assert (n <> [] /\ Forall plain n) as [N F] by (destruct I as [E|[E|[E|[E|[E|[]]]]]]; injection E as <- <-; (split; [discriminate|apply plain_str; reflexivity])).
  unfold parse_dest. rewrite (proj2 (parse_denotes _ _) (named n t l N F D)).
  destruct I as [E|[E|[E|[E|[E|[]]]]]]; injection E as <- <-; reflexivity.
Qed.
(** With -expr: what is written is the expression. *)
Lemma expr_parsed n k : In (n, k) dest_names -> exists path, (forall t l, denotes t l -> parse_dest (n ++ str "-expr:" ++ t) = Ok (mkDest path (expr_opt (fst (to_colon l))))) /\
  forall fuel s pr, open_dest (S fuel) s (mkDest path pr) = Ok k.
Proof.
  intros I. assert (exists x, n ++ str "-expr" <> [] /\ Forall plain (n ++ str "-expr") /\ strip_suffix (n ++ str "-expr") (str "-expr") = Some n /\ sink_name true n = Some x /\
    forall fuel s pr, open_dest (S fuel) s (mkDest (special_path x) pr) = Ok k) as (x & N & F & SS & SN & OP).
  { destruct I as [E|[E|[E|[E|[E|[]]]]]]; injection E as <- <-; eexists; (split; [discriminate|split; [apply plain_str; reflexivity|split; [reflexivity|split; [reflexivity|intros; reflexivity]]]]). }
  exists (special_path x). split; [|exact OP]. intros t l D.
  assert (n ++ str "-expr:" ++ t = (n ++ str "-expr") ++ str ":" ++ t) as -> by (rewrite <- app_assoc; reflexivity).
  unfold parse_dest. rewrite (proj2 (parse_denotes _ _) (named _ t l N F D)). cbn [to_colon]. rewrite SS, SN. unfold finish_dest. cbn [next_piece].
  destruct (fst (to_colon l)); reflexivity.
Qed.
Theorem C95_expr n k t l : In (n, k) dest_names -> denotes t l -> one_piece l ->
  exists d, parse_dest (n ++ str "-expr:" ++ t) = Ok d /\ d_prep d = expr_opt l /\ forall fuel s, open_dest (S fuel) s d = Ok k.
Proof.
  intros I D O. destruct (expr_parsed n k I) as (path & P & Q). specialize (P t l D). rewrite (to_colon_one l O) in P. eexists. split; [exact P|]. split; [reflexivity|intros; apply Q].
Qed.
(** What follows a colon in the expression is dropped without notice, whatever it is. *)
Theorem C95_tail_refuted n k t l t' l' : In (n, k) dest_names -> denotes t l -> one_piece l -> denotes t' l' ->
  exists d, parse_dest (n ++ str "-expr:" ++ t ++ str ":" ++ t') = Ok d /\ parse_dest (n ++ str "-expr:" ++ t) = Ok d.
Proof.
  intros I D O D'. pose proof (denotes_app_ctr t l CColon t' l' D D') as D2. change (delim CColon :: t') with (str ":" ++ t') in D2.
  destruct (expr_parsed n k I) as (path & P & _). rewrite (P _ _ D2), (P _ _ D), (to_colon_two l l' O), (to_colon_one l O). eexists. split; reflexivity.
Qed.

(** ** Files *)
(** All of the text after [file:] is the path, colons too. *)
Theorem C95_file t l : denotes t l -> parse_dest (str "file:" ++ t) = Ok (mkDest l None).
Proof.
  intros D. change (str "file:" ++ t) with (str "file" ++ str ":" ++ t).
  unfold parse_dest. rewrite (proj2 (parse_denotes _ _) (named (str "file") t l ltac:(discriminate) ltac:(apply plain_str; reflexivity) D)). reflexivity.
Qed.
Theorem C95_file_expr t l t' l' : denotes t l -> one_piece l -> denotes t' l' -> one_piece l' ->
  parse_dest (str "file-expr:" ++ t ++ str ":" ++ t') = Ok (mkDest l (expr_opt l')).
Proof.
  intros D O D' O'. pose proof (denotes_app_ctr t l CColon t' l' D D') as D2. change (delim CColon :: t') with (str ":" ++ t') in D2.
  change (str "file-expr:" ++ t ++ str ":" ++ t') with (str "file-expr" ++ str ":" ++ t ++ str ":" ++ t').
  unfold parse_dest. rewrite (proj2 (parse_denotes _ _) (named (str "file-expr") _ _ ltac:(discriminate) ltac:(apply plain_str; reflexivity) D2)).
  cbn [to_colon]. change (strip_suffix (str "file-expr") (str "-expr")) with (Some (str "file")). cbn [sink_name]. change (sink_name true (str "file")) with (@None bytes).
  change (beqb (str "file") (str "file")) with true. cbn [next_piece]. rewrite (to_colon_two l l' O). cbn [finish_dest next_piece]. rewrite (to_colon_one l' O'). reflexivity.
Qed.
(** Every file name can be written, and an ordinary one stands for itself. *)
Definition opens (t : bytes) (k : option Sink) : Prop := exists d, parse_dest t = Ok d /\ d_prep d = None /\ forall fuel s, open_dest (S fuel) s d = Ok k.
Lemma open_path d b : d_path d = b -> forall fuel s p, eval_bytes (S fuel) s b = Ok p -> (forall r, p <> 0 :: r) -> is_utf8 p = true -> open_dest (S fuel) s d = Ok (Some (SFile p)).
Proof.
  intros <- fuel s p E Z U. unfold open_dest. rewrite E. destruct p as [|[|q] r]; [reflexivity|exfalso; now apply (Z r)|]. now rewrite U.
Qed.
Lemma one_bytes b fuel s : b <> [] -> eval_bytes (S fuel) s [ABytes b] = Ok b.
Proof. intros N. unfold eval_bytes. cbn. now rewrite app_nil_r. Qed.
Theorem C95_any_file p : p <> [] -> bytes_ok p -> is_utf8 p = true -> (forall r, p <> 0 :: r) -> opens (str "file:" ++ as_abtxt p) (Some (SFile p)).
Proof.
  intros N B U Z. assert (denotes (as_abtxt p) [ABytes p]) as D.
  { assert (abes_ok [ABytes p]) as O by (constructor; [exact B|constructor]). pose proof (print_denotes _ O) as D. unfold norm in D. cbn in D. rewrite app_nil_r in D. rewrite as_abtxt_flat. destruct p; [congruence|exact D]. }
  exists (mkDest [ABytes p] None). split; [exact (C95_file _ _ D)|]. split; [reflexivity|]. intros fuel s. apply (open_path _ [ABytes p]); auto. now apply one_bytes.
Qed.

(** A path of ordinary characters, slashes and colons stands for itself. *)
Lemma push_concat l b : abl_concat (push_bytes l b) = abl_concat l ++ b.
Proof.
  induction l as [|[c x] l IH]; [cbn; now rewrite app_nil_r|]. cbn [push_bytes]. destruct l as [|y l].
  - cbn. now rewrite !app_nil_r, app_assoc.
  - change (abl_concat ((c, x) :: ?z)) with ((ctr_str c ++ x) ++ abl_concat z). rewrite IH. now rewrite app_assoc.
Qed.
Definition raw1 (e : ABE) : bytes := match e with ACtr c => [delim c] | ABytes b => b | ALst _ => [] end.
Lemma eval_raw s ctx l : (forall x, ~ In (ALst x) l) -> forall acc, exists r, eval_items s ctx l acc = Ok r /\ abl_concat r = abl_concat acc ++ flat_map raw1 l.
Proof.
  induction l as [|e l IH]; intros N acc; [exists acc; split; [reflexivity|now rewrite app_nil_r]|].
  assert (forall x, ~ In (ALst x) l) as N' by (intros x X; apply (N x); now right). cbn [eval_items flat_map].
  destruct e as [c|b|x]; [| |exfalso; apply (N x); now left]; cbn [match_expr obind push_item].
  - destruct (IH N' (push_ctr acc c)) as (rr & E & C). exists rr. split; [exact E|]. rewrite C. unfold push_ctr, abl_concat. rewrite flat_map_app. cbn. rewrite <- app_assoc. destruct c; reflexivity.
  - destruct (IH N' (push_bytes acc b)) as (rr & E & C). exists rr. split; [exact E|]. rewrite C, push_concat. now rewrite <- app_assoc.
Qed.
Lemma path_denotes p : Forall path_char p -> exists l, denotes p l /\ (forall x, ~ In (ALst x) l) /\ flat_map raw1 l = p.
Proof.
  induction 1 as [|c p P F IH]; [exists []; split; [constructor|split; [intros x []|reflexivity]]|]. destruct IH as (l & D & N & R).
  destruct P as [P|[->| ->]].
  - destruct l as [|[k|b|x] l].
    + inversion D; subst. exists [ABytes [c]]. split; [|split; [intros x [X|[]]; discriminate|reflexivity]]. apply (denotes_bytes [c] [c] [] []); [discriminate|exact (reads_cons [c] c [] [] (reads_plain c P) reads_nil)|exact I|constructor].
    + exists (ABytes [c] :: ACtr k :: l). split; [|split].
      * apply (denotes_bytes [c] [c] p (ACtr k :: l)); [discriminate|exact (reads_cons [c] c [] [] (reads_plain c P) reads_nil)|exact I|exact D].
      * intros x [X|X]; [discriminate|exact (N x X)].
      * cbn [flat_map raw1] in *. now rewrite R.
    + exists (ABytes (c :: b) :: l). split; [|split].
      * inversion D as [| | |t1 b' t2 l' NB RD NL D2]; subst. change (c :: t1 ++ t2) with ((c :: t1) ++ t2). constructor; [discriminate|exact (reads_cons [c] c _ _ (reads_plain c P) RD)|exact NL|exact D2].
      * intros x [X|X]; [discriminate|exact (N x (or_intror X))].
      * cbn [flat_map raw1] in *. cbn [app]. now rewrite R.
    + exfalso. apply (N x). now left.
  - exists (ACtr CColon :: l). split; [exact (denotes_ctr CColon p l D)|]. split; [intros x [X|X]; [discriminate|exact (N x X)]|]. cbn [flat_map raw1 app delim]. now rewrite R.
  - exists (ACtr CFSlash :: l). split; [exact (denotes_ctr CFSlash p l D)|]. split; [intros x [X|X]; [discriminate|exact (N x X)]|]. cbn [flat_map raw1 app delim]. now rewrite R.
Qed.
Lemma path_range c : path_char c -> 32 <= c <= 126.
Proof. intros [[R _]|[->| ->]]; [exact R|lia|lia]. Qed.
Theorem C95_plain_file p : Forall path_char p -> opens (str "file:" ++ p) (Some (SFile p)).
Proof.
  intros F. destruct (path_denotes p F) as (l & D & N & R). exists (mkDest l None). split; [exact (C95_file p l D)|]. split; [reflexivity|]. intros fuel s.
  apply (open_path _ l); [reflexivity| | |].
  - unfold eval_bytes. change (eval (S fuel) s l) with (eval_items s (ctx_of fuel s) l []). destruct (eval_raw s (ctx_of fuel s) l N []) as (r & E & C). rewrite E. cbn [obind]. rewrite C, R. reflexivity.
  - intros r ->. apply Forall_inv, path_range in F. lia.
  - clear -F. induction F as [|c p P F IH]; [reflexivity|]. cbn [is_utf8]. apply path_range in P. assert (c <? 128 = true) as -> by (apply N.ltb_lt; lia). exact IH.
Qed.
(** A file name that starts with a zero byte selects one of the other destinations. *)
Theorem C95_zero_refuted n k : In (n, k) dest_names -> bytes_ok (0 :: n) /\ opens (str "file:" ++ as_abtxt (0 :: n)) k.
Proof.
  intros I. assert (bytes_ok (0 :: n)) as B by (destruct I as [E|[E|[E|[E|[E|[]]]]]]; injection E as <- <-; repeat constructor).
  split; [exact B|]. assert (denotes (as_abtxt (0 :: n)) [ABytes (0 :: n)]) as D.
  { assert (abes_ok [ABytes (0 :: n)]) as O by (constructor; [exact B|constructor]). pose proof (print_denotes _ O) as D. unfold norm in D. cbn [norm1 fold_right join_bytes] in D.
    rewrite as_abtxt_flat. unfold print_abe in D. cbn [flat_map print1] in D. rewrite app_nil_r in D. exact D. }
  exists (mkDest [ABytes (0 :: n)] None). split; [exact (C95_file _ _ D)|]. split; [reflexivity|]. intros fuel s.
  destruct I as [E|[E|[E|[E|[E|[]]]]]]; injection E as <- <-; reflexivity.
Qed.
(** Nothing else is accepted. *)
Definition all_names : list bytes := str "-" :: str "file" :: str "file-expr" :: map fst dest_names ++ map (fun x => fst x ++ str "-expr") dest_names.
Lemma in_names n : existsb (beqb n) all_names = true -> In n all_names.
Proof. intros H. apply existsb_exists in H as (x & X & E). apply beqb_eq in E. now subst x. Qed.
Theorem C95_accepted t d : parse_dest t = Ok d -> exists n r, denotes t (ABytes n :: r) /\ (r = [] \/ exists r', r = ACtr CColon :: r') /\ In n all_names.
Proof.
  unfold parse_dest. destruct (parse_abe_strict t) as [l| | |] eqn:E; try discriminate. apply parse_denotes in E.
  destruct (to_colon l) as [first it] eqn:TC. destruct first as [|[c|n|x] [|y first]]; try discriminate. intros H. exists n.
  assert (exists r, l = ABytes n :: r /\ (r = [] \/ exists r', r = ACtr CColon :: r')) as (r & -> & R).
  { destruct l as [|[[|]|b|x] l]; cbn [to_colon] in TC; try discriminate; try (destruct (to_colon l) as [p o]; discriminate).
    destruct (to_colon l) as [p o] eqn:TL. injection TC as -> -> ->. exists l. split; [reflexivity|].
    destruct l as [|[[|]|b|x] l]; [now left|right; now exists l| | |]; cbn [to_colon] in TL; destruct (to_colon l); discriminate. }
  exists r. split; [exact E|]. split; [exact R|]. clear E TC R.
  destruct (strip_suffix n (str "-expr")) as [b|] eqn:SS.
  - assert (n = b ++ str "-expr") as ->.
    { unfold strip_suffix in SS. destruct (_ && _) eqn:X; [|discriminate]. injection SS as <-. apply andb_prop in X as [_ X]. apply beqb_eq in X.
      transitivity (takeN (lenN n - lenN (str "-expr")) n ++ dropN (lenN n - lenN (str "-expr")) n); [symmetry; apply firstn_skipn|now rewrite X]. }
    destruct (sink_name true b) as [x|] eqn:SN.
    + unfold sink_name in SN. rewrite andb_false_r in SN.
      repeat match type of SN with (if beqb b ?w then _ else _) = _ => let B := fresh in destruct (beqb b w) eqn:B; [apply beqb_eq in B; subst b; apply in_names; reflexivity|] end. discriminate.
    + destruct (beqb b (str "file")) eqn:B; [|discriminate]. apply beqb_eq in B. subst b. apply in_names. reflexivity.
  - destruct (sink_name false n) as [x|] eqn:SN.
    + unfold sink_name in SN. rewrite andb_true_r in SN.
      repeat match type of SN with (if beqb n ?w then _ else _) = _ => let B := fresh in destruct (beqb n w) eqn:B; [apply beqb_eq in B; subst n; apply in_names; reflexivity|] end. discriminate.
    + destruct (beqb n (str "file")) eqn:B; [|discriminate]. apply beqb_eq in B. subst n. apply in_names. reflexivity.
Qed.

(** ** Writing *)
(** A packet not of the private group is written to a stream as it is, or as the expression. *)
Definition public (p : NetPktParts) : Prop := check_private (parts_group (point_parts p)) = Ok tt.
Definition stream (k : Sink) : Prop := match k with SDb | SBuffer => False | _ => True end.
Theorem C95_written fuel sc private hb path prep k p : public p -> stream k ->
  write_spec fuel sc private hb (mkDest path prep) k p =
    match prep with None => Ok [WBytes k (np_bytes p)] | Some e => match eval fuel (sc p) e with Ok a => Ok [WBytes k (abl_concat a)] | Err _ => Err DExpr | Panic => Panic | OutOfFuel => OutOfFuel end end.
Proof.
  unfold public, write_spec. intros -> S. destruct private as [[|]|], k; try contradiction; cbn [d_prep]; unfold pkt_bytes_for, eval_bytes;
    (destruct prep as [e|]; [destruct (eval fuel (sc p) e); reflexivity|reflexivity]).
Qed.
(** A packet of the private group is only written when that was asked for. *)
Theorem C95_private fuel sc private hb d k p es : ~ public p -> write_spec fuel sc private hb d k p = Ok es -> es <> [] -> private = Some true.
Proof.
  unfold public, write_spec. intros N H E. destruct private as [[|]|]; [reflexivity| |]; destruct (check_private _) as [[]| | |]; try congruence; now injection H as <-.
Qed.
(** Otherwise it is refused, or left out when nothing was said. *)
Theorem C95_private_refused fuel sc hb d k p : ~ public p ->
  write_spec fuel sc (Some false) hb d k p = Err DPrivate /\ write_spec fuel sc None hb d k p = Ok [].
Proof. unfold public, write_spec. intros N. destruct (check_private _) as [[]| | |]; [congruence| | |]; split; reflexivity. Qed.
(** The buffer exists for some commands only; there it gets the bytes a stream would get. *)
Theorem C95_buffer fuel sc private hb d p : public p -> write_spec fuel sc private hb d SBuffer p =
  if hb then match write_spec fuel sc private hb d SStdout p with Ok [WBytes SStdout b] => Ok [WBuffer b] | r => r end else Err DBuffer.
Proof.
  unfold public, write_spec. intros ->. destruct private as [[|]|], hb; try reflexivity; destruct (pkt_bytes_for _ _ _ _); reflexivity.
Qed.
(** The database ignores the expression, though [db-expr] is accepted: the packet is saved as it
    is, also if the expression has no value. *)
Theorem C95_db_expr_refuted t l : denotes t l -> one_piece l -> exists d, parse_dest (str "db-expr:" ++ t) = Ok d /\ d_prep d = expr_opt l /\
  forall fuel s, open_dest (S fuel) s d = Ok (Some SDb) /\ forall sc private hb p, public p -> write_spec fuel sc private hb d SDb p = Ok [WSave p].
Proof.
  intros D O. destruct (C95_expr (str "db") (Some SDb) t l) as (d & P & E & Q); [right; right; right; now left|exact D|exact O|].
  exists d. split; [exact P|]. split; [exact E|]. intros fuel s. split; [apply Q|]. intros sc private hb p U. unfold public in U. unfold write_spec. rewrite U. destruct private as [[|]|]; reflexivity.
Qed.

(** ** Examples *)
Example C95_ex : Forall path_char (str "./some:thing/x.pkt") /\ opens (str "file:./some:thing/x.pkt") (Some (SFile (str "./some:thing/x.pkt"))) /\
  opens (str "file:a\[b\]") (Some (SFile (str "a[b]"))) /\
  parse_dest (str "stdout-expr:[hash:str]\n") = Ok (mkDest (special_path (str "stdout")) (Some [ALst [ABytes (str "hash"); ACtr CColon; ABytes (str "str")]; ABytes [10]])) /\
  parse_dest (str "stdout-expr:[hash]:[group]") = parse_dest (str "stdout-expr:[hash]") /\
  parse_dest (str "file-expr:out:[hash:str]") = Ok (mkDest [ABytes (str "out")] (Some [ALst [ABytes (str "hash"); ACtr CColon; ABytes (str "str")]])) /\
  opens (str "file:\0db") (Some SDb) /\ parse_dest (str "stdout:x") = Err DTail /\ parse_dest (str "--expr:x") = Err DName /\ parse_dest (str "stdin") = Err DName.
Proof.
  split; [apply Forall_forall; intros c I; cbn in I; repeat (destruct I as [<-|I]; [first [left; apply plainb_ok; reflexivity|right; left; reflexivity|right; right; reflexivity]|]); destruct I|].
  split; [eexists; split; [vm_compute; reflexivity|split; reflexivity]|]. split; [eexists; split; [vm_compute; reflexivity|split; reflexivity]|].
  do 3 (split; [vm_compute; reflexivity|]). split; [eexists; split; [vm_compute; reflexivity|split; reflexivity]|].
  repeat split; vm_compute; reflexivity.
Qed.
Definition ex_to (g : bytes) : NetPktParts :=
  ProofPred.np_of PropsPkt.toy_hash PropsPkt.ex_nh (SpecPkt.PLink g PropsPkt.ex_domain 77 PropsPkt.ex_links PropsPkt.ex_rspace PropsPkt.ex_data).
Example C95_write_ex : public (ex_to PropsPkt.ex_group) /\ ~ public (ex_to PRIVATE) /\
  write_spec 5 (fun _ => snone) None true (mkDest [] None) SBuffer (ex_to PropsPkt.ex_group) = Ok [WBuffer (np_bytes (ex_to PropsPkt.ex_group))] /\
  write_spec 5 (fun _ => snone) (Some true) false (mkDest [] (Some [ABytes [7]])) SStdout (ex_to PRIVATE) = Ok [WBytes SStdout [7]].
Proof. split; [reflexivity|]. split; [vm_compute; discriminate|]. split; vm_compute; reflexivity. Qed.
Print Assumptions C95_names.
Print Assumptions C95_name_alone.
Print Assumptions C95_expr.
Print Assumptions C95_tail_refuted.
Print Assumptions C95_file.
Print Assumptions C95_file_expr.
Print Assumptions C95_any_file.
Print Assumptions C95_plain_file.
Print Assumptions C95_zero_refuted.
Print Assumptions C95_accepted.
Print Assumptions C95_written.
Print Assumptions C95_private.
Print Assumptions C95_private_refused.
Print Assumptions C95_buffer.
Print Assumptions C95_db_expr_refuted.
