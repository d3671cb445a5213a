(** C82: reading stored packets in an expression. *)
From Coq Require Import Lia ZArith.
From Verif Require Import Bytes ModelSpace SpecSpace ProofSpace ModelPkt SpecPkt PropsPkt ModelStore SpecStore ModelPred SpecPred ProofPred PropsPred.
From Verif Require Import ModelTree SpecTree ModelQuery SpecQuery ProofQuery2 ProofQuery3 ProofStore ExStore PropsQuery.
From Verif Require Import ModelAbe SpecAbe ProofAbe ProofAbe2 ModelFmt SpecFmt ProofFmt ModelEval ModelFn SpecEval ProofFn ProofEval ProofEval2 ProofEval3 ModelLns ModelHtml.
From Verif Require Import ProofQText6.
From Verif Require ProofQText7 ProofRooted ProofFuel ProofTree.
From Verif Require Import PropsAbe PropsFmt PropsEval ModelPktScope SpecPktScope ProofPktScope ProofPktScope2 PropsPktScope SpecCliQuery ProofCliQuery3 ModelRead SpecRead ProofRead ProofRead2 ProofRead3 ProofCliQuery.
#[global] Arguments N.pow : simpl never.
Local Open Scope N_scope.

Lemma text2 (a b : bytes) : str "[readhash" ++ args_text [a; b] ++ str "]" = str "[readhash:" ++ a ++ str ":" ++ b ++ str "]".
Proof. change (args_text [a; b]) with ([58] ++ a ++ [58] ++ b ++ []). rewrite app_nil_r, <- !app_assoc. reflexivity. Qed.
Lemma text3 (a b : bytes) : str "[readhash" ++ args_text [a; b; str "str"] ++ str "]" = str "[readhash:" ++ a ++ str ":" ++ b ++ str ":str]".
Proof. change (args_text [a; b; str "str"]) with ([58] ++ a ++ [58] ++ b ++ str ":str"). rewrite <- !app_assoc. reflexivity. Qed.
Section C82.
Variable hash : bytes -> bytes.
Hypothesis HL : hash32 hash.
Variable d : db.
Variable l : list stored.
(** What the functions need besides the database *)
Variables (stale : option entry) (lk_private : option bytes) (now : N) (flags : N -> bytes) (lossy : bytes -> bytes) (public test : bytes).
Variable behind : scope -> list ABE -> outcome EvalError ABList.
Notation reading steps := (read_scope d steps stale lk_private now flags lossy public test behind).
Notation of_packet np e := (pkt_scope np (Some (fst e)) now flags lossy public test).

Lemma read_hash e : valid_store hash d l -> In e l -> read d (np_hash (snd e)) = Some (answer e).
Proof. intros (R & _) IN. destruct e as [t np]. apply (read_iff d l _ t (np_bytes np) R). exists np. auto. Qed.
Lemma pkt_iff np (e : stored) tn id ts args v : reads tn id -> id <> [] -> formats id = false -> Forall2 reads ts args -> lenN args <= 15 -> forall ctx,
  evaluates (of_packet np e) (91 :: tn ++ args_text ts ++ [93]) v <-> sc_func (of_packet np e) ctx id args true = Ok (Some v).
Proof. intros R NE FM F L ctx. apply call_exprs with id args; try assumption; [now apply reads_args|]. intros fuel. now apply pkt_ctx. Qed.
Lemma no_format id : ~ In id [str "pkt"; str "netpkt"; str "point"] -> formats id = false.
Proof.
  intros FM. unfold formats. destruct (beqb id _) eqn:E1; [apply beqb_eq in E1; subst; exfalso; apply FM; now left|]. destruct (beqb id (str "netpkt")) eqn:E2; [apply beqb_eq in E2; subst; exfalso; apply FM; right; now left|].
  destruct (beqb id (str "point")) eqn:E3; [apply beqb_eq in E3; subst; exfalso; apply FM; do 2 right; now left|]. reflexivity.
Qed.
Lemma readhash_lookup steps ctx args : 1 <= lenN args <= 16 -> sc_func (reading steps) ctx (str "readhash") args true = readhash_fn d now flags lossy public test ctx args true.
Proof. intros L. refine (escope_some _ _ _ _ _ _ (fn_ctx (str "readhash") None 1 16 (readhash_fn d now flags lossy public test)) _ (or_introl eq_refl) L). reflexivity. Qed.
Lemma read_lookup steps ctx args : 2 <= lenN args <= 16 -> sc_func (reading steps) ctx (str "read") args true = read_fn d steps stale lk_private now flags lossy public test ctx args true.
Proof. intros L. refine (escope_some _ _ _ _ _ _ (fn_ctx (str "read") None 2 16 (read_fn d steps stale lk_private now flags lossy public test)) _ (or_introl eq_refl) L). reflexivity. Qed.
Lemma hash_len e nh p : packet_at hash e nh p -> lenN (np_hash (snd e)) = 32.
Proof. intros (_ & (_ & _ & H) & _). rewrite H. apply HL. Qed.

(** A function of a stored packet: as if called in the scope of the packet. *)
Theorem C82_readhash steps s e nh p th tn id ts args tn' ts' v : valid_store hash d l -> In e l -> packet_at hash e nh p -> offers s (reading steps) (str "readhash") ->
  argument s th (np_hash (snd e)) -> argument s tn id -> Forall2 (argument s) ts args -> lenN args <= 13 ->
  reads tn' id -> Forall2 reads ts' args -> id <> [] -> ~ In id [str "pkt"; str "netpkt"; str "point"] ->
  exists np, view (np_bytes (snd e)) = Ok np /\
  (evaluates s (str "[readhash" ++ args_text (th :: tn :: ts) ++ str "]") v <-> evaluates (of_packet np e) (str "[" ++ tn' ++ args_text ts' ++ str "]") v).
Proof.
  intros VS IN PA OF TH TN TS LA RN RS NE FM. pose proof PA as (PK & _). exists (np_of hash nh p). pose proof (view_packet hash _ nh p HL PK) as VW. split; [exact VW|].
  apply no_format in FM. change (str "[readhash" ++ ?x ++ str "]") with (91 :: str "readhash" ++ x ++ [93]). change (str "[" ++ ?x ++ ?y ++ str "]") with (91 :: x ++ y ++ [93]).
  rewrite (pkt_iff _ _ tn' id ts' args v RN NE FM RS ltac:(lia) (ctx_of 0 s)).
  apply call_exprs with (str "readhash") (np_hash (snd e) :: id :: args); [discriminate|rewrite !lenN_cons; lia|apply name_reads; reflexivity|constructor; [exact TH|constructor; assumption]|].
  intros fuel. rewrite OF, readhash_lookup by (rewrite !lenN_cons; lia). unfold readhash_fn. change (arg 0 (?x :: ?y)) with x. cbn [tl].
  rewrite (fit_same 32 _ (hash_len e nh p PA)), (read_hash e VS IN). unfold pkt_call. cbn [answer snd fst]. rewrite VW, FM. now apply pkt_ctx.
Qed.
(** The fields of a stored packet. *)
Theorem C82_field steps s e nh p cs th name fm v : valid_store hash d l -> In e l -> packet_at hash e nh p -> offers s (reading steps) (str "readhash") ->
  argument s th (np_hash (snd e)) -> pt_comps p cs -> In (name, fm, v) (fields_of_packet hash nh p cs) ->
  evaluates s (str "[readhash:" ++ th ++ str ":" ++ name ++ str "]") v /\
  exists t, evaluates s (str "[readhash:" ++ th ++ str ":" ++ name ++ str ":str]") t /\ text_of fm v t.
Proof.
  intros VS IN PA OF TH CS FI. pose proof PA as (PK & _).
  destruct (in_row hash HL _ nh p cs name fm v PK CS FI) as (f & F & _). destruct (lookup hash HL nh p (Some (fst e)) now lossy flags public test name f F) as (NE & RN & _).
  assert (FM : ~ In name [str "pkt"; str "netpkt"; str "point"]).
  { intros I. clear - F I. unfold field_names in F. cbn [In] in F. repeat (destruct F as [F|F]; [apply (f_equal fst) in F; cbn [fst] in F; subst name; cbn [In] in I; repeat (destruct I as [I|I]; [discriminate I|]); exact I|]). exact F. }
  destruct (C79_field hash HL (Some (fst e)) now flags lossy public test _ nh p cs name fm v PK CS FI) as (np & VW & EV).
  destruct (C79_text hash HL (Some (fst e)) now flags lossy public test _ nh p cs name fm v PK CS FI) as (np' & t & VW' & ET & TX & _). assert (np' = np) as -> by congruence.
  assert (ID : forall r, extends r r) by apply extends_refl. split; [|exists t; split; [|exact TX]].
  - destruct (C82_readhash steps s e nh p th name name [] [] name [] v VS IN PA OF TH (reads_arg s _ _ RN) (Forall2_nil _) ltac:(vm_compute; discriminate) RN (Forall2_nil _) NE FM) as (np0 & V0 & E). assert (np0 = np) as -> by congruence.
    replace (str "[readhash:" ++ th ++ str ":" ++ name ++ str "]") with (str "[readhash" ++ args_text [th; name] ++ str "]") by apply text2.
    apply E. exact (proj1 (EV _ (ID _))).
  - assert (RS : reads (str "str") (str "str")) by (apply name_reads; reflexivity).
    destruct (C82_readhash steps s e nh p th name name [str "str"] [str "str"] name [str "str"] t VS IN PA OF TH (reads_arg s _ _ RN) (reads_args s [_] [_] (Forall2_cons _ _ RS (Forall2_nil _))) ltac:(vm_compute; discriminate) RN (Forall2_cons _ _ RS (Forall2_nil _)) NE FM) as (np0 & V0 & E). assert (np0 = np) as -> by congruence.
    replace (str "[readhash:" ++ th ++ str ":" ++ name ++ str ":str]") with (str "[readhash" ++ args_text [th; name; str "str"] ++ str "]") by apply text3.
    apply E. exact (ET _ (ID _)).
Qed.
(** Only stored packets can be read. *)
Theorem C82_missing steps s th h ts args v : valid_store hash d l -> offers s (reading steps) (str "readhash") ->
  argument s th h -> Forall2 (argument s) ts args -> lenN args <= 14 ->
  evaluates s (str "[readhash" ++ args_text (th :: ts) ++ str "]") v -> exists e, In e l /\ np_hash (snd e) = h.
Proof.
  intros (R & _) OF TH TS LA. change (str "[readhash" ++ ?x ++ str "]") with (91 :: str "readhash" ++ x ++ [93]). intros EV. destruct (read d h) as [[t b]|] eqn:RD.
  - apply (read_iff d l _ _ _ R) in RD as (np & I & <- & _). exists (t, np). auto.
  - exfalso. apply (call_exprs s (str "readhash") (str "readhash") (th :: ts) (h :: args) fails) in EV; [discriminate EV|discriminate|rewrite lenN_cons; lia|apply name_reads; reflexivity|now constructor|].
    intros fuel. rewrite OF, readhash_lookup by (rewrite lenN_cons; lia). unfold readhash_fn. change (arg 0 (?x :: ?y)) with x. destruct (fit 32 h) as [h'| | |] eqn:F; try reflexivity.
    assert (h' = h) as ->; [|now rewrite RD]. unfold fit, fit_front in F. destruct (N.eqb_spec (lenN h) 32) as [E|E]; [|discriminate F]. cbn [negb] in F. rewrite E in F. cbn in F. apply ProofQText7.ok_inj in F. rewrite <- F. now rewrite app_nil_r.
Qed.

(** ** read *)
(** The bytes of a group or key, or their base64 text *)
Definition code (v b : bytes) : Prop := bytes_ok b /\ lenN b = 32 /\ (v = b \/ v = b64_display b).
Lemma code_fits v b : code v b -> fit_or_b64 v = Some b.
Proof.
  intros (O & L & [->| ->]); unfold fit_or_b64.
  - unfold b64_parse. rewrite L. change (negb (32 =? (32 * 4 + 2) / 3)) with true. cbn iota. now rewrite (fit_same 32 b L).
  - rewrite <- L, C44_b64_round_trip by exact O. reflexivity.
Qed.
Definition may_read (grp : bytes) : Prop := grp <> PRIVATE \/ lk_private = Some (str "true").
Lemma read_value steps ctx dv dom gv grp cs kv key id args : lenN dv <= 16 -> dom = repeat 0 (N.to_nat (16 - lenN dv)) ++ dv -> code gv grp -> code kv key -> space_ok cs -> (List.length cs <= 8)%nat ->
  may_read grp -> formats id = false ->
  read_fn d steps stale lk_private now flags lossy public test ctx (dv :: gv :: wire_space cs :: kv :: id :: args) true =
  match query_tree steps d false (dgsk dom grp (wire_rooted cs) key) stale with
  | Ok [] => fails
  | Ok (r :: _) => match pkt_call now flags lossy public test ctx r id args with Ok None => fails | x => x end
  | Err _ | Panic => Panic
  | OutOfFuel => OutOfFuel
  end.
Proof.
  intros LD -> CG CK SC L8 MR FM. unfold read_fn. change (arg 0 (?x :: ?y)) with x. unfold fit_back. destruct (N.ltb_spec 16 (lenN dv)); [lia|].
  unfold opt_arg. cbn [nth_error skipn]. rewrite (code_fits _ _ CG), (code_fits _ _ CK). change (arg 2 (?x :: ?y :: ?z :: ?w)) with z.
  assert (beqb grp PRIVATE && negb (may_read_private lk_private) = false) as ->.
  { destruct MR as [MR| ->]; [|now rewrite andb_false_r]. destruct (beqb grp PRIVATE) eqn:E; [apply beqb_eq in E; contradiction|reflexivity]. }
  assert (space_from_slice (wire_space cs) = Ok (wire_space cs)) as ->. { unfold space_from_slice. now rewrite (proj2 (check_components_iff _ (lenN cs)) (ex_intro _ cs (conj SC (conj eq_refl eq_refl)))). }
  cbn [obind]. rewrite (ProofRooted.try_into_rooted_wire cs SC), firstn_all2 by exact L8. reflexivity.
Qed.
Theorem C82_read_partial dom grp key cs : honest_store hash d l -> space_ok cs -> (List.length cs <= 8)%nat -> bytes_ok dom -> lenN dom = 16 ->
  bytes_ok grp -> lenN grp = 32 -> bytes_ok key -> lenN key = 32 ->
  exists n0 (found : option stored),
  match found with
  | None => cs = [] -> forall e sp, In e l -> ~ located hash dom grp key sp e
  | Some e => exists more, latest hash l dom grp key (cs ++ more) e /\ (cs = [] -> forall f sp, In f l -> located hash dom grp key sp f -> lenN more <= lenN sp)
  end /\
  forall steps s td dv tg gv tsp tk kv tn id ts args tn' ts' v, (n0 <= steps)%nat -> offers s (reading steps) (str "read") ->
    argument s td dv -> lenN dv <= 16 -> dom = repeat 0 (N.to_nat (16 - lenN dv)) ++ dv ->
    argument s tg gv -> code gv grp -> may_read grp -> argument s tsp (wire_space cs) -> argument s tk kv -> code kv key ->
    argument s tn id -> Forall2 (argument s) ts args -> lenN args <= 10 -> reads tn' id -> Forall2 reads ts' args -> id <> [] -> ~ In id [str "pkt"; str "netpkt"; str "point"] ->
    (evaluates s (str "[read" ++ args_text (td :: tg :: tsp :: tk :: tn :: ts) ++ str "]") v <->
     exists e np, found = Some e /\ view (np_bytes (snd e)) = Ok np /\ evaluates (of_packet np e) (str "[" ++ tn' ++ args_text ts' ++ str "]") v).
Proof.
  intros HS SC L8 DO DL GO GL KO KL. destruct (read_first hash HL d l HS dom grp key cs (conj DO DL) (conj GO GL) (conj KO KL) SC stale) as (n0 & out & Q & F).
  assert (exists found, match out with [] => found = None | r :: _ => exists e, found = Some e /\ r = answer e end /\
    match found with
    | None => cs = [] -> forall e sp, In e l -> ~ located hash dom grp key sp e
    | Some e => exists more, latest hash l dom grp key (cs ++ more) e /\ (cs = [] -> forall f sp, In f l -> located hash dom grp key sp f -> lenN more <= lenN sp)
    end) as (found & FO & FD).
  { destruct out as [|r out]; [exists None; auto|]. destruct F as (e & more & E & LA & SH). exists (Some e). split; [exists e; auto|]. exists more. auto. }
  exists n0, found. split; [exact FD|]. intros steps s td dv tg gv tsp tk kv tn id ts args tn' ts' v ST OF TD LD ED TG CG MR TS TK CK TN TA LA RN RS NE FM.
  apply no_format in FM. change (str "[read" ++ ?x ++ str "]") with (91 :: str "read" ++ x ++ [93]). change (str "[" ++ ?x ++ ?y ++ str "]") with (91 :: x ++ y ++ [93]).
  assert (CALL : forall r, (forall fuel, sc_func s (ctx_of fuel s) (str "read") (dv :: gv :: wire_space cs :: kv :: id :: args) true = r) ->
    evaluates s (91 :: str "read" ++ args_text (td :: tg :: tsp :: tk :: tn :: ts) ++ [93]) v <-> r = Ok (Some v)).
  { intros r. apply call_exprs; [discriminate|rewrite !lenN_cons; lia|apply name_reads; reflexivity|]. repeat (constructor; [assumption|]). exact TA. }
  assert (LEN : 2 <= lenN (dv :: gv :: wire_space cs :: kv :: id :: args) <= 16) by (rewrite !lenN_cons; lia).
  destruct out as [|r out].
  - subst found. rewrite (CALL fails); [split; [discriminate|intros (e & np & E & _); discriminate E]|]. intros fuel. rewrite OF, read_lookup by exact LEN.
    now rewrite (read_value steps _ dv dom gv grp cs kv key id args), (Q steps ST) by assumption.
  - destruct FO as (e & -> & ->). destruct FD as (more & (IN & _) & _). destruct (store_packet hash d l (proj1 HS) e IN) as (nh & p & PA). pose proof PA as (PK & _). pose proof (view_packet hash _ nh p HL PK) as VW.
    rewrite (CALL (match sc_func (of_packet (np_of hash nh p) e) (ctx_of 0 s) id args true with Ok None => fails | x => x end)).
    + pose proof (pkt_iff (np_of hash nh p) e tn' id ts' args v RN NE FM RS ltac:(lia) (ctx_of 0 s)) as PI. split.
      * intros H. exists e, (np_of hash nh p). split; [reflexivity|]. split; [exact VW|]. apply PI. destruct (sc_func _ _ _ _ _) as [[x|]| | |]; try discriminate H; exact H.
      * intros (e' & np & E & V' & EV). injection E as <-. rewrite VW in V'. apply ProofQText7.ok_inj in V'. subst np. apply PI in EV. now rewrite EV.
    + intros fuel. rewrite OF, read_lookup by exact LEN. rewrite (read_value steps _ dv dom gv grp cs kv key id args), (Q steps ST) by assumption.
      unfold pkt_call. cbn [answer snd fst]. rewrite VW, FM. now rewrite (pkt_ctx _ _ _ _ _ _ _ (ctx_of fuel s) (ctx_of 0 s) id args FM).
Qed.
(** The private group needs LK_PRIVATE. *)
Theorem C82_private steps s td dv tg gv ts args v : offers s (reading steps) (str "read") -> argument s td dv -> argument s tg gv -> code gv PRIVATE ->
  Forall2 (argument s) ts args -> lenN args <= 13 -> lk_private <> Some (str "true") ->
  ~ evaluates s (str "[read" ++ args_text (td :: tg :: ts) ++ str "]") v.
Proof.
  intros OF TD TG CG TA LA NP. change (str "[read" ++ ?x ++ str "]") with (91 :: str "read" ++ x ++ [93]). intros EV.
  apply (call_exprs s (str "read") (str "read") (td :: tg :: ts) (dv :: gv :: args) fails) in EV; [discriminate EV|discriminate|rewrite !lenN_cons; lia|apply name_reads; reflexivity|constructor; [assumption|now constructor]|].
  intros fuel. rewrite OF, read_lookup by (rewrite !lenN_cons; lia). unfold read_fn, opt_arg. cbn [nth_error]. rewrite (code_fits _ _ CG). destruct (fit_back 0 16 _); try reflexivity.
  assert (may_read_private lk_private = false) as ->. { unfold may_read_private. destruct lk_private as [t|]; [|reflexivity]. destruct (beqb t (str "true")) eqn:E; [apply beqb_eq in E; subst; contradiction|reflexivity]. }
  reflexivity.
Qed.

(** ** The macro *)
Lemma macro_lookup steps ctx k : sc_macro (reading steps) ctx (str "readhash") k = readhash_macro d now flags lossy public test behind ctx k.
Proof. reflexivity. Qed.
Lemma hash_part s th h : expr_text s th h -> exists lh, denotes th lh /\ no_colon lh /\ exists n, forall fuel, (n <= fuel)%nat -> exists abl, eval fuel s lh = Ok abl /\ abl_concat abl = h.
Proof.
  intros (lh & D & _ & X & n & E). exists lh. split; [exact D|]. split; [now apply exprs_no_colon|]. exists n. intros fuel FU. destruct (E fuel FU) as (abl & V & B). exists abl. split; [exact V|now apply exact_concat].
Qed.
Lemma parts_denote th lh te le t k : denotes th lh -> parse_abe_strict te = Ok le -> denotes t k -> not_bytes k ->
  denotes (58 :: th ++ 58 :: te ++ t) (ACtr CColon :: lh ++ ACtr CColon :: le ++ k).
Proof.
  intros D P D2 NB. apply (denotes_ctr CColon). apply denotes_then; [exact D| |exact Logic.I]. apply (denotes_ctr CColon). apply denotes_then; [now apply parse_denotes|exact D2|exact NB].
Qed.
Lemma part_text (th te t : bytes) : str "[/readhash:" ++ th ++ str ":" ++ te ++ t ++ str "]" = 91 :: 47 :: str "readhash" ++ (58 :: th ++ 58 :: te ++ t) ++ [93].
Proof. change (str "[/readhash:") with (91 :: 47 :: str "readhash" ++ [58]). cbn [app]. repeat (rewrite <- !app_assoc; cbn [app]). reflexivity. Qed.

Lemma split_first r : split_on (abe_is CColon) (ACtr CColon :: r) = [] :: split_on (abe_is CColon) r.
Proof. exact (split_colon [] r (Forall_nil _)). Qed.
(** The macro evaluates its expression in the scope of the caller followed by that of the packet; whatever the alternative is. *)
Theorem C82_macro steps s e nh p th te le rest v : valid_store hash d l -> In e l -> packet_at hash e nh p -> offers_macro s (reading steps) (str "readhash") ->
  expr_text s th (np_hash (snd e)) -> macro_part te le -> rest = [] \/ (exists ta la, rest = str ":" ++ ta /\ parse_abe_strict ta = Ok la) ->
  exists np, view (np_bytes (snd e)) = Ok np /\
  (evaluates s (str "[/readhash:" ++ th ++ str ":" ++ te ++ rest ++ str "]") v <-> exists abl, behind (of_packet np e) le = Ok abl /\ abl_concat abl = v).
Proof.
  intros VS IN PA OF TH [PE NC] RE. pose proof PA as (PK & _). pose proof (view_packet hash _ nh p HL PK) as VW. exists (np_of hash nh p). split; [exact VW|].
  destruct (hash_part s th _ TH) as (lh & D & NH & n & E). rewrite part_text.
  assert (exists k, denotes rest k /\ not_bytes k /\ exists gs, split_on (abe_is CColon) (le ++ k) = le :: gs) as (k & DK & NB & gs & SK).
  { destruct RE as [->|(ta & la & -> & PA')]; [exists []; split; [constructor|]; split; [exact Logic.I|]; exists []; rewrite app_nil_r; now apply split_last|].
    exists (ACtr CColon :: la). split; [apply (denotes_ctr CColon); now apply parse_denotes|]. split; [exact Logic.I|]. exists (split_on (abe_is CColon) la). now apply split_colon. }
  rewrite (macro_evaluates s (str "readhash") _ (ACtr CColon :: lh ++ ACtr CColon :: le ++ k) (of_eval (behind (of_packet (np_of hash nh p) e) le)) v n).
  - unfold of_eval. destruct (behind _ le) as [abl| | |]; (split; [intros H|intros (a & H & A)]; try discriminate).
    + exists abl. split; [reflexivity|]. unfold val in H. congruence.
    + injection H as <-. unfold val. congruence.
  - discriminate.
  - apply name_reads; reflexivity.
  - now apply parts_denote.
  - exact Logic.I.
  - intros fuel FU. rewrite OF, macro_lookup. unfold readhash_macro. rewrite split_first, (split_colon lh _ NH), SK.
    change (c_eval (ctx_of fuel s) lh) with (eval fuel s lh). destruct (E fuel FU) as (abl & -> & ->).
    rewrite (fit_same 32 _ (hash_len e nh p PA)), (read_hash e VS IN). cbn [answer snd fst]. now rewrite VW.
Qed.
Lemma macro_missing steps s th h te le k tk v n : offers_macro s (reading steps) (str "readhash") -> expr_text s th h -> lenN h = 32 -> read d h = None -> macro_part te le ->
  denotes tk k -> forall r, (forall fuel, (n <= fuel)%nat -> match split_on (abe_is CColon) k with alt :: _ :: _ => of_eval (c_eval (ctx_of fuel s) alt) | _ => fails end = r) ->
  evaluates s (str "[/readhash:" ++ th ++ str ":" ++ te ++ (58 :: tk) ++ str "]") v <-> r = Ok (Some v).
Proof.
  intros OF TH LH RD [PE NC] DK r RK. destruct (hash_part s th _ TH) as (lh & D & NH & n' & E). rewrite part_text.
  apply (macro_evaluates s (str "readhash") _ (ACtr CColon :: lh ++ ACtr CColon :: le ++ ACtr CColon :: k) r v (n + n')).
  - discriminate.
  - apply name_reads; reflexivity.
  - apply parts_denote; [assumption..| |exact Logic.I]. now apply (denotes_ctr CColon).
  - exact Logic.I.
  - intros fuel FU. rewrite OF, macro_lookup. unfold readhash_macro. rewrite split_first, (split_colon lh _ NH), (split_colon le _ NC).
    change (c_eval (ctx_of fuel s) lh) with (eval fuel s lh). destruct (E fuel ltac:(lia)) as (abl & -> & ->).
    rewrite (fit_same 32 _ LH), RD. rewrite <- (RK fuel ltac:(lia)). destruct (split_on _ k) as [|a [|b g]]; reflexivity.
Qed.
Lemma not_stored h : valid_store hash d l -> (forall e, In e l -> np_hash (snd e) <> h) -> read d h = None.
Proof. intros (R & _) N. destruct (read d h) as [[t b]|] eqn:RD; [|reflexivity]. apply (read_iff d l _ _ _ R) in RD as (np & I & H & _). destruct (N _ I H). Qed.
(** The alternative of the macro, in the form of its help text, is an error: the code asks for one argument more. *)
Theorem C82_alternative_refuted steps s th h te le ta la v : valid_store hash d l -> offers_macro s (reading steps) (str "readhash") -> expr_text s th h -> lenN h = 32 ->
  (forall e, In e l -> np_hash (snd e) <> h) -> macro_part te le -> macro_part ta la ->
  ~ evaluates s (str "[/readhash:" ++ th ++ str ":" ++ te ++ str ":" ++ ta ++ str "]") v.
Proof.
  intros VS OF TH LH NS ME [PA NA] EV. change (str ":" ++ ta ++ str "]") with ((58 :: ta) ++ str "]") in EV.
  apply (macro_missing steps s th h te le la ta v 0 OF TH LH (not_stored h VS NS) ME (proj1 (parse_denotes _ _) PA) fails) in EV; [discriminate EV|].
  intros fuel _. now rewrite (split_last la NA).
Qed.
(** With anything more behind another colon the macro gives the alternative. *)
Theorem C82_alternative steps s th h te le ta la tx lx w v : valid_store hash d l -> offers_macro s (reading steps) (str "readhash") -> expr_text s th h -> lenN h = 32 ->
  (forall e, In e l -> np_hash (snd e) <> h) -> macro_part te le -> macro_part ta la -> parse_abe_strict tx = Ok lx -> evaluates s ta w ->
  evaluates s (str "[/readhash:" ++ th ++ str ":" ++ te ++ str ":" ++ ta ++ str ":" ++ tx ++ str "]") v <-> v = w.
Proof.
  intros VS OF TH LH NS ME [PA NA] PX (la' & n & P' & E). rewrite PA in P'. injection P' as <-.
  replace (str ":" ++ ta ++ str ":" ++ tx ++ str "]") with ((58 :: ta ++ 58 :: tx) ++ str "]") by (cbn [app str]; rewrite <- app_assoc; reflexivity).
  rewrite (macro_missing steps s th h te le (la ++ ACtr CColon :: lx) (ta ++ 58 :: tx) v n OF TH LH (not_stored h VS NS) ME) with (r := val w).
  - unfold val. split; congruence.
  - apply denotes_then; [now apply parse_denotes|apply (denotes_ctr CColon); now apply parse_denotes|exact Logic.I].
  - intros fuel FU. rewrite (split_colon la lx NA). destruct (split_on (abe_is CColon) lx) as [|g gs] eqn:SX.
    + exfalso. destruct lx as [|x lx]; [discriminate SX|]. cbn [split_on] in SX. destruct (split_on _ lx); [discriminate SX|]. destruct (abe_is CColon x); discriminate SX.
    + change (c_eval (ctx_of fuel s) la) with (eval fuel s la). destruct (E fuel FU) as (abl & -> & B). cbn [of_eval]. now rewrite (exact_concat _ _ B).
Qed.

(** ** Findings *)
(** F105: the example of the help text of [read] has an empty argument between the key and the function: it is the name of the function, and the call fails for every store. *)
Lemma no_name np (e : stored) ctx args : sc_func (of_packet np e) ctx [] args true = Ok None.
Proof. reflexivity. Qed.
Theorem F105_help steps s td dv tg gv grp cs tsp tk kv key ts args v : offers s (reading steps) (str "read") -> argument s td dv -> lenN dv <= 16 -> argument s tg gv -> code gv grp -> may_read grp ->
  argument s tsp (wire_space cs) -> space_ok cs -> (List.length cs <= 8)%nat -> argument s tk kv -> code kv key -> Forall2 (argument s) ts args -> lenN args <= 10 ->
  ~ evaluates s (str "[read" ++ args_text (td :: tg :: tsp :: tk :: [] :: ts) ++ str "]") v.
Proof.
  intros OF TD LD TG CG MR TS SC L8 TK CK TA LA EV. change (str "[read" ++ ?x ++ str "]") with (91 :: str "read" ++ x ++ [93]) in EV.
  assert (exists r, (forall fuel, sc_func s (ctx_of fuel s) (str "read") (dv :: gv :: wire_space cs :: kv :: [] :: args) true = r) /\ forall w, r <> Ok (Some w)) as (r & R & N).
  { remember (query_tree steps d false (dgsk (repeat 0 (N.to_nat (16 - lenN dv)) ++ dv) grp (wire_rooted cs) key) stale) as q eqn:Q.
    exists (match q with Ok [] => fails | Ok (r :: _) => match view (snd r) with Ok _ => fails | _ => Panic end | Err _ | Panic => Panic | OutOfFuel => OutOfFuel end). split.
    - intros fuel. rewrite OF, read_lookup by (rewrite !lenN_cons; lia).
      rewrite (read_value steps _ dv _ gv grp cs kv key [] args LD eq_refl CG CK SC L8 MR eq_refl), <- Q. destruct q as [[|a q]| | |]; try reflexivity.
      unfold pkt_call. destruct (view (snd a)) as [np| | |]; reflexivity.
    - intros w. destruct q as [[|a q]| | |]; try discriminate. destruct (view (snd a)); discriminate. }
  apply (call_exprs s (str "read") (str "read") (td :: tg :: tsp :: tk :: [] :: ts) (dv :: gv :: wire_space cs :: kv :: [] :: args) r) in EV; [exact (N v EV)|discriminate|rewrite !lenN_cons; lia|apply name_reads; reflexivity| |exact R].
  repeat (constructor; [assumption|]). constructor; [left; auto|exact TA].
Qed.
(** F106: an empty argument for the group or the key is an error; only arguments that are left out at the end have a default. *)
Theorem F106_empty steps s td dv tg gv tsp sv ts args v : offers s (reading steps) (str "read") -> argument s td dv -> argument s tg gv -> argument s tsp sv -> Forall2 (argument s) ts args -> lenN args <= 10 ->
  ~ evaluates s (str "[read" ++ args_text (td :: [] :: tsp :: ts) ++ str "]") v /\ ~ evaluates s (str "[read" ++ args_text (td :: tg :: tsp :: [] :: ts) ++ str "]") v.
Proof.
  intros OF TD TG TS TA LA. change (str "[read" ++ ?x ++ str "]") with (91 :: str "read" ++ x ++ [93]). split; intros EV.
  - apply (call_exprs s (str "read") (str "read") (td :: [] :: tsp :: ts) (dv :: [] :: sv :: args) fails) in EV; [discriminate EV|discriminate|rewrite !lenN_cons; lia|apply name_reads; reflexivity| |].
    { constructor; [assumption|]. constructor; [left; auto|]. now constructor. }
    intros fuel. rewrite OF, read_lookup by (rewrite !lenN_cons; lia). unfold read_fn. change (opt_arg 1 (dv :: [] :: sv :: args) PUBLIC) with (@None bytes). now destruct (fit_back 0 16 _).
  - remember (match fit_back 0 16 dv, opt_arg 1 [dv; gv] PUBLIC with
              | Ok _, Some g => if beqb g PRIVATE && negb (may_read_private lk_private) then fails
                                else match obind (space_from_slice sv) try_into_rooted with Panic => Panic | _ => fails end
              | _, _ => fails end) as r eqn:R.
    assert (forall w, r <> Ok (Some w)) as N.
    { intros w. rewrite R. destruct (fit_back 0 16 dv); try discriminate. destruct (opt_arg 1 _ PUBLIC) as [g|]; try discriminate. destruct (beqb g PRIVATE && _); [discriminate|]. destruct (obind _ _); discriminate. }
    apply (call_exprs s (str "read") (str "read") (td :: tg :: tsp :: [] :: ts) (dv :: gv :: sv :: [] :: args) r) in EV; [exact (N v EV)|discriminate|rewrite !lenN_cons; lia|apply name_reads; reflexivity| |].
    { do 3 (constructor; [assumption|]). constructor; [left; auto|exact TA]. }
    intros fuel. rewrite OF, read_lookup by (rewrite !lenN_cons; lia). rewrite R. unfold read_fn. change (opt_arg 1 (dv :: gv :: sv :: [] :: args) PUBLIC) with (opt_arg 1 [dv; gv] PUBLIC).
    change (arg 0 (dv :: ?x)) with dv. change (arg 2 (dv :: gv :: sv :: ?x)) with sv. change (opt_arg 3 (dv :: gv :: sv :: [] :: args) (repeat 0 32)) with (@None bytes).
    destruct (fit_back 0 16 dv); reflexivity.
Qed.
End C82.
(** ** What reading a place misses *)
Definition skip_points : list point := [lnk 5 [sp 97] [1]; lnk 6 [sp 98] [2]; lnk 7 [sp 99; sp 100] [3]].
Definition skip_db : db := store_all 100 skip_points.
Definition skip_list : list stored := stored_list 100 skip_points.
Lemma skip_well : Forall well_point skip_points.
Proof. apply Forall_cons; [good_link|]. apply Forall_cons; [good_link|]. apply Forall_cons; [good_link|apply Forall_nil]. Qed.
Lemma skip_honest : honest_store toy_hash skip_db skip_list.
Proof. apply store_all_honest; [vm_compute; reflexivity|vm_compute; reflexivity|exact skip_well]. Qed.
Lemma skip_in e : In e skip_list -> exists i p, nth_error skip_points i = Some p /\ e = (100 + N.of_nat i, net_pkt p).
Proof. intros [<-|[<-|[<-|[]]]]; [exists 0%nat|exists 1%nat|exists 2%nat]; eexists; split; reflexivity. Qed.
Lemma skip_at i p : nth_error skip_points i = Some p -> packet_at toy_hash (100 + N.of_nat i, net_pkt p) ex_nh p.
Proof.
  intros E. pose proof skip_well as W. rewrite Forall_forall in W. apply at_point; [apply W; now apply nth_error_In in E|].
  destruct i as [|[|[|[|]]]]; try discriminate E; reflexivity.
Qed.
Lemma skip_index c cs x : cs_okb cs = true -> index_of toy_hash (lnk c cs x) {| i_group := ex_group; i_domain := ex_domain; i_space := cs; i_pubkey := repeat 0 32; i_create := c; i_hash := toy_hash (content (lnk c cs x)) |}.
Proof. intros OK. exists cs. split; [apply (rooted_of cs OK)|reflexivity]. Qed.
Lemma skip_located i c cs x : nth_error skip_points i = Some (lnk c cs x) -> cs_okb cs = true ->
  forall dom grp key cs', located toy_hash dom grp key cs' (100 + N.of_nat i, net_pkt (lnk c cs x)) <-> dom = ex_domain /\ grp = ex_group /\ key = repeat 0 32 /\ cs' = cs.
Proof.
  intros E OK dom grp key cs'. pose proof (skip_index c cs x OK) as IX. split.
  - intros (ix & (nh & p & PA & IO) & <- & <- & <- & <-). destruct (packet_at_inj _ _ _ _ _ _ PA (skip_at i _ E)) as [-> ->]. rewrite (index_inj toy_hash _ _ _ IO IX). auto.
  - intros (-> & -> & -> & ->). eexists. split; [exists ex_nh, (lnk c cs x); split; [now apply skip_at|exact IX]|]. auto.
Qed.
Definition skip_query (steps : nat) (cs : list bytes) (stale : option entry) := query_tree steps skip_db false (dgsk ex_domain ex_group (wire_rooted cs) (repeat 0 32)) stale.
Lemma skip_b stale steps : skip_query steps [sp 98] stale <> OutOfFuel -> skip_query steps [sp 98] stale = Ok [].
Proof. intros N. assert (Q : skip_query 100 [sp 98] stale = Ok []) by (vm_compute; reflexivity). rewrite <- Q. apply tree_unique; [exact N|]. unfold skip_query in Q. rewrite Q. discriminate. Qed.
Lemma skip_c stale steps : (100 <= steps)%nat -> exists e, nth_error skip_points 2 = Some (lnk 7 [sp 99; sp 100] [3]) /\ e = (102, net_pkt (lnk 7 [sp 99; sp 100] [3])) /\ skip_query steps [sp 99] stale = Ok [answer e].
Proof.
  intros L. eexists. split; [reflexivity|]. split; [reflexivity|]. assert (Q : skip_query 100 [sp 99] stale = Ok [answer (102, net_pkt (lnk 7 [sp 99; sp 100] [3]))]) by (vm_compute; reflexivity).
  unfold skip_query in *. refine (tree_more 100 steps _ _ _ _ _ L Q _). discriminate.
Qed.
Lemma ex_code (b : bytes) : forallb (fun x => x <? 256) b = true -> lenN b = 32 -> code b b.
Proof. intros B L. split; [now apply bytes_okb|]. split; [exact L|now left]. Qed.
Section Skip.
Variables (stale : option entry) (lk_private : option bytes) (now : N) (flags : N -> bytes) (lossy : bytes -> bytes) (public test : bytes).
Variable behind : scope -> list ABE -> outcome EvalError ABList.
Notation reading steps := (read_scope skip_db steps stale lk_private now flags lossy public test behind).
Lemma skip_call steps s td tg tsp tk cs v r : offers s (reading steps) (str "read") -> argument s td ex_domain -> argument s tg ex_group -> argument s tsp (wire_space cs) -> argument s tk (repeat 0 32) ->
  space_ok cs -> (List.length cs <= 8)%nat ->
  (forall ctx, match skip_query steps cs stale with
  | Ok [] => fails
  | Ok (r :: _) => match pkt_call now flags lossy public test ctx r (str "data") [] with Ok None => fails | x => x end
  | Err _ | Panic => Panic
  | OutOfFuel => OutOfFuel
  end = r) ->
  evaluates s (str "[read" ++ args_text [td; tg; tsp; tk; str "data"] ++ str "]") v <-> r = Ok (Some v).
Proof.
  intros OF TD TG TS TK SO L8 R. change (str "[read" ++ ?x ++ str "]") with (91 :: str "read" ++ x ++ [93]).
  apply call_exprs with (str "read") [ex_domain; ex_group; wire_space cs; repeat 0 32; str "data"]; [discriminate|vm_compute; discriminate|apply name_reads; reflexivity| |].
  { repeat (constructor; [assumption|]). constructor; [apply reads_arg, name_reads; reflexivity|constructor]. }
  intros fuel. rewrite OF, read_lookup by (split; vm_compute; discriminate). rewrite <- (R (ctx_of fuel s)).
  apply (read_value skip_db stale lk_private now flags lossy public test steps _ ex_domain ex_domain ex_group ex_group cs (repeat 0 32) (repeat 0 32) (str "data") []); try assumption; try reflexivity.
  - apply ex_code; vm_compute; reflexivity.
  - apply ex_code; vm_compute; reflexivity.
  - left. intros H. vm_compute in H. discriminate H.
Qed.
End Skip.
(** A packet stored at /b is not found there: with packets at /a, /b and /c/d the first jump of the cursor passes /b. *)
Theorem C82_read_refuted : exists d l e cs, honest_store toy_hash d l /\ latest toy_hash l ex_domain ex_group (repeat 0 32) cs e /\
  forall stale lk_private now flags lossy public test behind steps s td tg tsp tk v,
    offers s (read_scope d steps stale lk_private now flags lossy public test behind) (str "read") ->
    argument s td ex_domain -> argument s tg ex_group -> argument s tsp (wire_space cs) -> argument s tk (repeat 0 32) ->
    ~ evaluates s (str "[read" ++ args_text [td; tg; tsp; tk; str "data"] ++ str "]") v.
Proof.
  exists skip_db, skip_list, (101, net_pkt (lnk 6 [sp 98] [2])), [sp 98]. split; [exact skip_honest|]. split.
  { split; [right; left; reflexivity|]. split; [now apply (proj2 (skip_located 1 6 [sp 98] [2] eq_refl eq_refl _ _ _ _))|].
    intros f [<-|[<-|[<-|[]]]] LO.
    - apply (skip_located 0 5 [sp 97] [1] eq_refl eq_refl) in LO as (_ & _ & _ & LO). discriminate LO.
    - exists {| i_group := ex_group; i_domain := ex_domain; i_space := [sp 98]; i_pubkey := repeat 0 32; i_create := 6; i_hash := toy_hash (content (lnk 6 [sp 98] [2])) |},
             {| i_group := ex_group; i_domain := ex_domain; i_space := [sp 98]; i_pubkey := repeat 0 32; i_create := 6; i_hash := toy_hash (content (lnk 6 [sp 98] [2])) |}.
      assert (IX : index_at toy_hash (101, net_pkt (lnk 6 [sp 98] [2])) {| i_group := ex_group; i_domain := ex_domain; i_space := [sp 98]; i_pubkey := repeat 0 32; i_create := 6; i_hash := toy_hash (content (lnk 6 [sp 98] [2])) |}).
      { exists ex_nh, (lnk 6 [sp 98] [2]). split; [exact (skip_at 1 _ eq_refl)|apply skip_index; reflexivity]. }
      split; [exact IX|]. split; [exact IX|]. right. split; [reflexivity|]. cbn [i_hash]. rewrite lex_refl. discriminate.
    - apply (skip_located 2 7 [sp 99; sp 100] [3] eq_refl eq_refl) in LO as (_ & _ & _ & LO). discriminate LO. }
  intros stale lk_private now flags lossy public test behind steps s td tg tsp tk v OF TD TG TS TK EV.
  assert (SO : space_ok [sp 98]) by (apply ProofTree.space_okb; vm_compute; reflexivity).
  destruct (skip_query steps [sp 98] stale) as [out|x| |] eqn:Q.
  - pose proof (skip_b stale steps ltac:(rewrite Q; discriminate)) as Q'. rewrite Q in Q'. apply ProofQText7.ok_inj in Q'. subst out.
    apply (skip_call stale lk_private now flags lossy public test behind steps s td tg tsp tk [sp 98] v fails OF TD TG TS TK SO) in EV; [discriminate EV|cbn; lia|]. intros ctx. now rewrite Q.
  - pose proof (skip_b stale steps ltac:(rewrite Q; discriminate)) as Q'. rewrite Q in Q'. discriminate Q'.
  - pose proof (skip_b stale steps ltac:(rewrite Q; discriminate)) as Q'. rewrite Q in Q'. discriminate Q'.
  - apply (skip_call stale lk_private now flags lossy public test behind steps s td tg tsp tk [sp 98] v OutOfFuel OF TD TG TS TK SO) in EV; [discriminate EV|cbn; lia|]. intros ctx. now rewrite Q.
Qed.
(** Reading /c, where nothing is stored, gives the packet stored at /c/d. *)
Theorem C82_place_refuted : exists d l cs data, honest_store toy_hash d l /\ (forall e, In e l -> ~ located toy_hash ex_domain ex_group (repeat 0 32) cs e) /\
  forall stale lk_private now flags lossy public test behind steps s td tg tsp tk, (100 <= steps)%nat ->
    offers s (read_scope d steps stale lk_private now flags lossy public test behind) (str "read") ->
    argument s td ex_domain -> argument s tg ex_group -> argument s tsp (wire_space cs) -> argument s tk (repeat 0 32) ->
    evaluates s (str "[read" ++ args_text [td; tg; tsp; tk; str "data"] ++ str "]") data.
Proof.
  exists skip_db, skip_list, [sp 99], [3]. split; [exact skip_honest|]. split.
  { intros e [<-|[<-|[<-|[]]]] LO.
    - apply (skip_located 0 5 [sp 97] [1] eq_refl eq_refl) in LO as (_ & _ & _ & LO). discriminate LO.
    - apply (skip_located 1 6 [sp 98] [2] eq_refl eq_refl) in LO as (_ & _ & _ & LO). discriminate LO.
    - apply (skip_located 2 7 [sp 99; sp 100] [3] eq_refl eq_refl) in LO as (_ & _ & _ & LO). discriminate LO. }
  intros stale lk_private now flags lossy public test behind steps s td tg tsp tk ST OF TD TG TS TK.
  assert (SO : space_ok [sp 99]) by (apply ProofTree.space_okb; vm_compute; reflexivity). destruct (skip_c stale steps ST) as (e & _ & -> & Q).
  apply (skip_call stale lk_private now flags lossy public test behind steps s td tg tsp tk [sp 99] [3] (val [3]) OF TD TG TS TK SO ltac:(cbn; lia)); [|reflexivity].
  intros ctx. rewrite Q. vm_compute. reflexivity.
Qed.

(** ** Examples *)
Definition ex_o := o1.
Definition ex_behind (r : scope) (k : list ABE) := eval 20 (spair (core_scope ex_o) r) k.
Definition ex_reading (d : db) (lk_private : option bytes) : scope := read_scope d 100 None lk_private 0 (fun _ => []) (fun b => b) PUBLIC (repeat 1 32) ex_behind.
Definition ex_s (d : db) (lk_private : option bytes) : scope := spair (core_scope ex_o) (ex_reading d lk_private).
Definition gives (s : scope) (t v : bytes) : Prop := exists k abl, parse_abe_strict t = Ok k /\ eval 20 s k = Ok abl /\ as_exact_bytes abl = Some v.
Lemma ex_offers d lk : offers (ex_s d lk) (ex_reading d lk) (str "readhash") /\ offers (ex_s d lk) (ex_reading d lk) (str "read") /\ offers_macro (ex_s d lk) (ex_reading d lk) (str "readhash").
Proof. split; [|split]; intros fuel args; cbn; reflexivity. Qed.
Definition ab (b : bytes) : bytes := as_abtxt b.
Example C82_ex : valid_store toy_hash ex_db ex_list /\ packet_at toy_hash (105, net_pkt p_a) ex_nh p_a /\ In (105, net_pkt p_a) ex_list /\
  argument (ex_s ex_db None) (ab (np_hash (net_pkt p_a))) (np_hash (net_pkt p_a)) /\ expr_text (ex_s ex_db None) (ab (np_hash (net_pkt p_a))) (np_hash (net_pkt p_a)) /\
  In (str "data", AsText, [2; 2]) (fields_of_packet toy_hash ex_nh p_a [sp 97]) /\
  gives (ex_s ex_db None) (str "[readhash:" ++ ab (np_hash (net_pkt p_a)) ++ str ":data]") [2; 2] /\
  gives (ex_s ex_db None) (str "[/readhash:" ++ ab (np_hash (net_pkt p_a)) ++ str ":[comp0]-[create:str]]") (str "a-11") /\
  gives (ex_s ex_db None) (str "[/readhash:" ++ ab (repeat 1 32) ++ str ":[comp0]:none[u8:33]:]") (str "none!").
Proof.
  assert (PA : packet_at toy_hash (105, net_pkt p_a) ex_nh p_a) by (apply at_point; [apply ex_well; cbn; tauto|reflexivity]).
  assert (R : argument (ex_s ex_db None) (ab (np_hash (net_pkt p_a))) (np_hash (net_pkt p_a))) by (apply reads_arg, abtxt_reads, bytes_okb; vm_compute; reflexivity).
  split; [apply ex_honest|]. split; [exact PA|]. split; [exact (ex_at 5 p_a eq_refl)|]. split; [exact R|]. split; [destruct R as [[_ R]|R]; [apply (f_equal lenN) in R; vm_compute in R; discriminate R|exact R]|].
  split; [unfold fields_of_packet; do 28 apply in_cons; left; reflexivity|].
  repeat (split; [do 2 eexists; split; [vm_compute; reflexivity|split; vm_compute; reflexivity]|]). do 2 eexists. split; [vm_compute; reflexivity|split; vm_compute; reflexivity].
Qed.
Definition read_text (cs : list bytes) (key : bytes) : bytes := str "[read" ++ args_text [ab ex_domain; ab ex_group; ab (wire_space cs); ab key; str "data"] ++ str "]".
Example C82_read_ex : honest_store toy_hash ex_db ex_list /\ code (b64_display ex_group) ex_group /\ may_read None ex_group /\
  gives (ex_s ex_db None) (read_text [] (repeat 0 32)) [1] /\ gives (ex_s ex_db None) (read_text [sp 97] (repeat 0 32)) [2; 2].
Proof.
  split; [exact ex_honest|]. split; [split; [apply bytes_okb; vm_compute; reflexivity|]; split; [reflexivity|now right]|]. split; [left; intros H; vm_compute in H; discriminate H|].
  split; (do 2 eexists; split; [vm_compute; reflexivity|split; vm_compute; reflexivity]).
Qed.
(** The packets of the witnesses can be asked for. *)
Example C82_refuted_ex : offers (ex_s skip_db None) (ex_reading skip_db None) (str "read") /\ argument (ex_s skip_db None) (ab ex_domain) ex_domain /\ argument (ex_s skip_db None) (ab ex_group) ex_group /\
  argument (ex_s skip_db None) (ab (wire_space [sp 98])) (wire_space [sp 98]) /\ argument (ex_s skip_db None) (ab (repeat 0 32)) (repeat 0 32) /\
  gives (ex_s skip_db None) (read_text [sp 97] (repeat 0 32)) [1] /\ gives (ex_s skip_db None) (read_text [sp 99] (repeat 0 32)) [3].
Proof.
  split; [apply ex_offers|]. do 4 (split; [apply reads_arg, abtxt_reads, bytes_okb; vm_compute; reflexivity|]).
  split; (do 2 eexists; split; [vm_compute; reflexivity|split; vm_compute; reflexivity]).
Qed.
(** F104: a packet of the private group, that [read] refuses, is read by its hash. *)
Definition priv_point : point := PLink PRIVATE ex_domain 5 [] (wire_rooted []) [7].
Definition priv_db : db := store_all 100 [priv_point].
Theorem F104_private : exists d l e, valid_store toy_hash d l /\ latest toy_hash l ex_domain PRIVATE (repeat 0 32) [] e /\
  (forall s td tg tsp tk v, offers s (ex_reading d None) (str "read") -> argument s td ex_domain -> argument s tg PRIVATE -> argument s tsp [] -> argument s tk (repeat 0 32) ->
    ~ evaluates s (str "[read" ++ args_text [td; tg; tsp; tk; str "data"] ++ str "]") v) /\
  forall s th, offers s (ex_reading d None) (str "readhash") -> argument s th (np_hash (snd e)) -> evaluates s (str "[readhash:" ++ th ++ str ":data]") [7].
Proof.
  assert (W : good_point priv_point).
  { split; [|apply bytes_okb; vm_compute; reflexivity]. split; [vm_compute; discriminate|]. repeat (split; [reflexivity || (vm_compute; discriminate) || (constructor)|]). try (vm_compute; reflexivity). apply (rooted_of [] eq_refl). }
  assert (PA : packet_at toy_hash (100, net_pkt priv_point) ex_nh priv_point) by (now apply at_point).
  assert (IX : index_at toy_hash (100, net_pkt priv_point) {| i_group := PRIVATE; i_domain := ex_domain; i_space := []; i_pubkey := repeat 0 32; i_create := 5; i_hash := toy_hash (content priv_point) |}).
  { exists ex_nh, priv_point. split; [exact PA|]. exists []. split; [apply (rooted_of [] eq_refl)|reflexivity]. }
  assert (LO : located toy_hash ex_domain PRIVATE (repeat 0 32) [] (100, net_pkt priv_point)) by (eexists; split; [exact IX|auto]).
  assert (VS : valid_store toy_hash priv_db (stored_list 100 [priv_point])) by (apply store_all_valid; [vm_compute; reflexivity|vm_compute; reflexivity|now constructor]).
  exists priv_db, (stored_list 100 [priv_point]), (100, net_pkt priv_point). split; [exact VS|]. split; [|split].
  - split; [left; reflexivity|]. split; [exact LO|]. intros f [<-|[]] _. exists {| i_group := PRIVATE; i_domain := ex_domain; i_space := []; i_pubkey := repeat 0 32; i_create := 5; i_hash := toy_hash (content priv_point) |}.
    eexists. split; [exact IX|]. split; [exact IX|]. right. split; [reflexivity|]. rewrite lex_refl. discriminate.
  - intros s td tg tsp tk v OF TD TG TS TK. apply (C82_private _ _ _ _ _ _ _ _ _ _ s td ex_domain tg PRIVATE [tsp; tk; str "data"] [[]; repeat 0 32; str "data"] v OF TD TG).
    + apply ex_code; vm_compute; reflexivity.
    + constructor; [exact TS|]. constructor; [exact TK|]. constructor; [apply reads_arg, name_reads; reflexivity|constructor].
    + vm_compute. discriminate.
    + discriminate.
  - intros s th OF TH. refine (proj1 (C82_field toy_hash toy_hash32 priv_db (stored_list 100 [priv_point]) None None 0 (fun _ => []) (fun b => b) PUBLIC (repeat 1 32) ex_behind 100 s (100, net_pkt priv_point) ex_nh priv_point [] th (str "data") AsText [7] VS (or_introl eq_refl) PA OF TH _ _)).
    + split; [apply ProofTree.space_okb; vm_compute; reflexivity|]. split; [vm_compute; lia|]. left. split; reflexivity.
    + unfold fields_of_packet. do 28 apply in_cons. left. reflexivity.
Qed.

Print Assumptions C82_readhash.
Print Assumptions C82_field.
Print Assumptions C82_missing.
Print Assumptions C82_read_partial.
Print Assumptions C82_private.
Print Assumptions C82_macro.
Print Assumptions C82_alternative.
Print Assumptions C82_alternative_refuted.
Print Assumptions C82_read_refuted.
Print Assumptions C82_place_refuted.
Print Assumptions F104_private.
Print Assumptions F105_help.
Print Assumptions F106_empty.
