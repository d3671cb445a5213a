(** C80: the text of a packet. *)
From Coq Require Import Lia ZArith.
From Verif Require Import Bytes ModelSpace SpecSpace ProofSpace ModelPkt SpecPkt PropsPkt ModelPred SpecPred ProofPred PropsPred.
From Verif Require Import ModelAbe SpecAbe ProofAbe ProofAbe2 ModelFmt SpecFmt ProofFmt ModelEval ModelFn SpecEval ProofFn ProofEval ProofEval2 ProofEval3 ModelLns ModelHtml.
From Verif Require Import ProofPkt2 ProofHtml PropsAbe PropsFmt PropsEval ProofQText7.
From Verif Require Import ModelPktScope SpecPktScope ProofPktScope ProofPktScope2 PropsPktScope SpecPktText.
#[global] Arguments N.pow : simpl never.
Local Open Scope N_scope.

(** One bracket *)
Definition gives (s : scope) (e : ABE) (v : bytes) : Prop := exists n, forall fuel, (n <= fuel)%nat -> match_expr s (ctx_of fuel s) e = Ok (IBytes v).
Lemma evaluates_gives s t e v : parse_abe_strict t = Ok [e] -> evaluates s t v -> gives s e v.
Proof.
  intros P (l & n & P' & E). rewrite P in P'. apply ok_inj in P' as <-. exists n. intros fuel F. destruct (E (S fuel)) as (abl & V & B); [lia|].
  change (eval (S fuel) s [e]) with (eval_items s (ctx_of fuel s) [e] []) in V. cbn [eval_items] in V.
  destruct (match_expr s (ctx_of fuel s) e) as [[c|x]| | |]; try discriminate; cbn [obind eval_items push_item push_ctr push_bytes app] in V; apply ok_inj in V as <-; [discriminate|].
  cbn in B. now injection B as ->.
Qed.
Lemma bytes_gives s b : gives s (ABytes b) b. Proof. exists 0%nat. reflexivity. Qed.
Lemma list_gives s es vs : Forall2 (gives s) es vs -> exists n, forall fuel, (n <= fuel)%nat -> forall x, eval_items s (ctx_of fuel s) es [(None, x)] = Ok [(None, x ++ List.concat vs)].
Proof.
  induction 1 as [|e v es vs [n E] F [m IH]].
  - exists 0%nat. intros fuel _ x. cbn. now rewrite app_nil_r.
  - exists (Nat.max n m). intros fuel L x. cbn [eval_items]. rewrite E by lia. cbn [obind push_item push_bytes List.concat]. rewrite IH by lia. now rewrite app_assoc.
Qed.
Lemma list_eval s e es v vs : gives s e v -> Forall2 (gives s) es vs -> exists n, forall fuel, (n <= fuel)%nat -> eval fuel s (e :: es) = Ok [(None, v ++ List.concat vs)].
Proof.
  intros [n E] F. destruct (list_gives s es vs F) as [m G]. exists (S (Nat.max n m)). intros [|fuel] L; [lia|].
  change (eval (S fuel) s (e :: es)) with (eval_items s (ctx_of fuel s) (e :: es) []). cbn [eval_items]. rewrite E by lia. cbn [obind push_item push_bytes]. apply G. lia.
Qed.
Lemma gives_evaluates s t es vs : es <> [] -> parse_abe_strict t = Ok es -> Forall2 (gives s) es vs -> evaluates s t (List.concat vs).
Proof.
  intros NE P F. destruct F as [|e v es vs G F]; [contradiction|]. destruct (list_eval s e es v vs G F) as [n E]. exists (e :: es), n. split; [exact P|].
  intros fuel L. eexists. split; [now apply E|reflexivity].
Qed.

Definition fmt_abe : list ABE := match parse_abe_strict default_pkt with Ok l => l | _ => [] end.

(** ** Names of groups and keys *)
Lemma core_enc o id b : sc_enc (core_scope o) id [] b =
  if beqb id (str "#") then hash_enc o b [] else if beqb id (str "@") then at_enc b [] else if beqb id (str "b") then enc_b b [] else sc_enc (core_scope o) id [] b.
Proof.
  destruct (beqb id (str "#")) eqn:E1; [apply beqb_eq in E1 as ->; rewrite (proj2 (core_flat o)); reflexivity|].
  destruct (beqb id (str "@")) eqn:E2; [apply beqb_eq in E2 as ->; rewrite (proj2 (core_flat o)); reflexivity|].
  destruct (beqb id (str "b")) eqn:E3; [apply beqb_eq in E3 as ->; rewrite (proj2 (core_flat o)); reflexivity|]. reflexivity.
Qed.
Lemma named_text o s name b : (name = str "#" \/ name = str "@") -> bytes_ok b -> lenN b = 32 -> (forall id opts x, sc_enc s id opts x = sc_enc (core_scope o) id opts x) ->
  exists t, encode_abe (sc_enc s) b [ABytes name; ACtr CFSlash; ABytes (str "b")] true = Ok t /\ forall s', extends (core_scope o) s' -> evaluates s' t b.
Proof.
  intros NM O L EN.
  assert (forall id t s', extends (core_scope o) s' -> (id = name \/ id = str "b") -> sc_enc (core_scope o) id [] b = Ok (Some t) -> evaluates s' t b) as G.
  { intros id t s' X I E. apply item_evaluates, (enc_item o s' id b [] t); [exact X|exact O|rewrite L; reflexivity| | |exact E].
    - intros [-> | ->]; destruct I as [I|I]; try discriminate I; destruct NM as [-> | ->]; discriminate I.
    - intros ->. destruct I as [I|I]; [destruct NM as [-> | ->]; discriminate I|discriminate I]. }
  assert (sc_enc (core_scope o) name [] b = Ok None \/ exists t, sc_enc (core_scope o) name [] b = Ok (Some t)) as C.
  { rewrite core_enc. destruct NM as [-> | ->].
    - change (beqb (str "#") (str "#")) with true. cbn iota. unfold hash_enc, val. destruct (negb _), (beqb b PRIVATE_GROUP), (beqb b (o_public o)), (beqb b (o_test o)); eauto.
    - change (beqb (str "@") (str "#")) with false. change (beqb (str "@") (str "@")) with true. cbn iota. unfold at_enc, val. destruct (beqb b PRIVATE_GROUP); eauto. }
  assert (sc_enc (core_scope o) (str "b") [] b = Ok (Some (str "[b:" ++ base64 b ++ str "]"))) as EB by (rewrite core_enc; reflexivity).
  assert (encode_abe (sc_enc s) b [ABytes name; ACtr CFSlash; ABytes (str "b")] true = encode_pieces (sc_enc s) b [[ABytes name]; [ABytes (str "b")]] true) as -> by reflexivity.
  cbn [encode_pieces encode_one]. rewrite !EN. destruct C as [C|[t C]]; rewrite C; cbn [obind].
  - rewrite EB. cbn [obind]. eexists. split; [reflexivity|]. intros s' X. apply (G (str "b")); [exact X|now right|exact EB].
  - exists t. split; [reflexivity|]. intros s' X. apply (G name); [exact X|now left|exact C].
Qed.
Lemma encode_gives o s name field b t : extends (core_scope o) s -> gives s field b ->
  encode_abe (sc_enc s) b [ABytes name; ACtr CFSlash; ABytes (str "b")] true = Ok t ->
  (exists l, field = ALst l) -> gives s (ALst [ACtr CFSlash; ABytes (str "~?"); ACtr CColon; field; ACtr CFSlash; ABytes name; ACtr CFSlash; ABytes (str "b")]) t.
Proof.
  intros [_ X] [n G] E [l ->]. exists (S n). intros [|fuel] L; [lia|]. unfold match_expr. cbn [tl run_macro].
  assert (sc_macro s (ctx_of (S fuel) s) (str "~?") [ACtr CColon; ALst l; ACtr CFSlash; ABytes name; ACtr CFSlash; ABytes (str "b")] = Ok (Some t)) as ->; [|reflexivity].
  apply X. assert (encode_macro true (ctx_of (S fuel) s) [ACtr CColon; ALst l; ACtr CFSlash; ABytes name; ACtr CFSlash; ABytes (str "b")] = Ok (Some t)) as M.
  { unfold encode_macro. change (hd [] (split_on (abe_is CFSlash) [ALst l; ACtr CFSlash; ABytes name; ACtr CFSlash; ABytes (str "b")])) with [ALst l].
    change (c_eval (ctx_of (S fuel) s) [ALst l]) with (eval_items s (ctx_of fuel s) [ALst l] []). cbn [eval_items]. rewrite G by lia. cbn [obind eval_items push_item push_bytes].
    change (after_fslash [ALst l; ACtr CFSlash; ABytes name; ACtr CFSlash; ABytes (str "b")]) with [ABytes name; ACtr CFSlash; ABytes (str "b")].
    change (c_enc (ctx_of (S fuel) s)) with (sc_enc s). cbn [abl_concat flat_map ctr_str app]. rewrite app_nil_r, E. reflexivity. }
  cbn [core_scope basic_scope spair sc_macro escope find fst beqb or_else help_m encode_m space_m str snd].
  replace (beqb (str "help") (str "~?")) with false by reflexivity.
  replace (beqb (str "or") (str "~?")) with false by reflexivity.
  replace (beqb (str "?") (str "~?")) with false by reflexivity.
  replace (beqb (str "~?") (str "~?")) with true by reflexivity.
  cbn [or_else snd]. rewrite M. reflexivity.
Qed.

(** ** The parts of the format *)
Definition lst (t : bytes) : ABE := match parse_abe_strict t with Ok [e] => e | _ => ABytes [] end.
Lemma fmt_parts_eq : fmt_abe =
  [ABytes (str "type" ++ [9]); lst (str "[type:str]"); ABytes ([10] ++ str "hash" ++ [9]); lst (str "[hash:str]"); ABytes ([10] ++ str "group" ++ [9]);
   ALst [ACtr CFSlash; ABytes (str "~?"); ACtr CColon; lst (str "[group]"); ACtr CFSlash; ABytes (str "#"); ACtr CFSlash; ABytes (str "b")];
   ABytes ([10] ++ str "domain" ++ [9]); lst (str "[domain:str]"); ABytes ([10] ++ str "space" ++ [9]); lst (str "[spacename:str]"); ABytes ([10] ++ str "pubkey" ++ [9]);
   ALst [ACtr CFSlash; ABytes (str "~?"); ACtr CColon; lst (str "[pubkey]"); ACtr CFSlash; ABytes (str "@"); ACtr CFSlash; ABytes (str "b")];
   ABytes ([10] ++ str "create" ++ [9]); lst (str "[create:str]"); ABytes ([10] ++ str "links" ++ [9]); lst (str "[links_len:str]"); ABytes [10];
   lst (str "[/links:\t[tag:str] [ptr:str]\n]"); ABytes ([10] ++ str "data" ++ [9]); lst (str "[data_size:str]"); ABytes [10]; lst (str "[data/~utf8]"); ABytes [10]].
Proof. vm_compute. reflexivity. Qed.

Section C80.
Variable hash : bytes -> bytes.
Hypothesis HL : hash32 hash.
Variables (recv : option N) (now : N) (flags : N -> bytes) (lossy : bytes -> bytes) (public test : bytes).
Notation scope_of np := (pkt_scope np recv now flags lossy public test).

Lemma user_enc o np argv s : user_scope o (Some (scope_of np)) argv = Some s -> forall id opts x, sc_enc s id opts x = sc_enc (core_scope o) id opts x.
Proof.
  unfold user_scope. destruct (match argv with None => _ | Some _ => _ end) as [a|] eqn:A; [|discriminate]. intros E id opts x. injection E as <-. cbn [spair sc_enc].
  assert (forall fs ms, Forall (fun f => f_enc f = None) fs -> sc_enc (escope fs ms) id opts x = Ok None) as G.
  { intros fs ms F. cbn [escope sc_enc]. destruct (find _ fs) as [f|] eqn:Q; [|reflexivity]. apply find_some in Q as [I _]. apply (proj1 (Forall_forall _ _) F) in I. now rewrite I. }
  assert (sc_enc (scope_of np) id opts x = Ok None) as ->.
  { unfold pkt_scope. cbn [spair sc_enc]. rewrite !G; [reflexivity|repeat constructor|repeat constructor|repeat constructor|].
    unfold field_funcs. apply Forall_map, Forall_forall. intros [n f] _. reflexivity. }
  assert (sc_enc a id opts x = Ok None) as ->.
  { destruct argv as [l|]; [|injection A as <-; reflexivity]. destruct (argv_fit l); [|discriminate]. injection A as <-. unfold argv_scope. apply G, Forall_map, Forall_forall. reflexivity. }
  cbn [or_else]. destruct (sc_enc (core_scope o) id opts x) as [[v|]| | |]; reflexivity.
Qed.
Lemma field_gives b nh p cs name fm v s e : packet_of hash b nh p -> pt_comps p cs -> In (name, fm, v) (fields_of_packet hash nh p cs) -> extends (scope_of (np_of hash nh p)) s ->
  parse_abe_strict (str "[" ++ name ++ str ":str]") = Ok [e] ->
  exists t, gives s e t /\ text_of fm v t /\ (fm = AsSpace -> forall o, exists n, forall fuel, (n <= fuel)%nat -> space_str fuel o t = Ok (wire_space cs)).
Proof.
  intros PK CS I X P. destruct (C79_text hash HL recv now flags lossy public test b nh p cs name fm v PK CS I) as (np & t & V & E & T & S).
  rewrite (view_packet hash b nh p HL PK) in V. apply ok_inj in V as <-. exists t. split; [|split; [exact T|exact S]]. apply (evaluates_gives s _ e t P), E, X.
Qed.
Lemma plain_gives b nh p cs name fm v s e : packet_of hash b nh p -> pt_comps p cs -> In (name, fm, v) (fields_of_packet hash nh p cs) -> extends (scope_of (np_of hash nh p)) s ->
  parse_abe_strict (str "[" ++ name ++ str "]") = Ok [e] -> gives s e v.
Proof.
  intros PK CS I X P. destruct (C79_field hash HL recv now flags lossy public test b nh p cs name fm v PK CS I) as (np & V & E).
  rewrite (view_packet hash b nh p HL PK) in V. apply ok_inj in V as <-. apply (evaluates_gives s _ e v P), (E s X).
Qed.
Lemma data_gives o b nh p s : packet_of hash b nh p -> extends (scope_of (np_of hash nh p)) s -> extends (core_scope o) s ->
  gives s (lst (str "[data/~utf8]")) (o_lossy o (pt_data p)).
Proof.
  intros PK [X _] [Y _]. exists 2%nat. intros fuel L. destruct fuel as [|fuel]; [lia|].
  change (lst (str "[data/~utf8]")) with (ALst [ABytes (str "data"); ACtr CFSlash; ABytes (str "~utf8")]).
  change (match_expr s (ctx_of (S fuel) s) (ALst [ABytes (str "data"); ACtr CFSlash; ABytes (str "~utf8")])) with
    (obind (obind (call s (ctx_of (S fuel) s) (str "data") [[]] true) (fun v => obind (call s (ctx_of (S fuel) s) (str "~utf8") [v] false) (fun r => Ok r))) (fun b => Ok (IBytes b))).
  assert (In (str "data", AsText, pt_data p) (fields_of_packet hash nh p [])) as I by (unfold fields_of_packet; do 28 apply in_cons; left; reflexivity).
  assert (sc_func s (ctx_of (S fuel) s) (str "data") [] true = Ok (Some (pt_data p))) as A.
  { apply X. destruct (lookup hash HL nh p recv now lossy flags public test (str "data") DataF) as (_ & _ & LK); [unfold field_names; do 28 apply in_cons; left; reflexivity|].
    specialize (LK snone (ctx_of (S fuel) s) []). cbn [spair sc_func snone] in LK. rewrite !or_else_none in LK. rewrite LK by (vm_compute; discriminate).
    destruct p; reflexivity. }
  assert (sc_func s (ctx_of (S fuel) s) (str "~utf8") [pt_data p] false = Ok (Some (o_lossy o (pt_data p)))) as B.
  { apply Y. rewrite (proj1 (core_flat o)). reflexivity. }
  unfold call. cbn [tl]. rewrite A. cbn [obind]. rewrite B. reflexivity.
Qed.
Lemma links_gives b nh p s : packet_of hash b nh p -> extends (scope_of (np_of hash nh p)) s ->
  exists ts, Forall2 (fun l t => text_of AsDomain (fst l) (fst t) /\ text_of AsCode (snd l) (snd t)) (pt_links p) ts /\
    gives s (lst (str "[/links:\t[tag:str] [ptr:str]\n]")) (flat_map (fun l => [9] ++ fst l ++ [32] ++ snd l ++ [10]) ts).
Proof.
  intros PK X. set (e := str "\t[tag:str] [ptr:str]\n"). set (show := fun t : bytes * bytes => [9] ++ fst t ++ [32] ++ snd t ++ [10]).
  assert (parse_abe_strict e = Ok [ABytes [9]; lst (str "[tag:str]"); ABytes [32]; lst (str "[ptr:str]"); ABytes [10]]) as PE by (vm_compute; reflexivity).
  assert (forall ls n, n + lenN ls < 65536 -> Forall (fun l => bytes_ok (fst l) /\ bytes_ok (snd l)) ls -> Forall (fun l : bytes * bytes => lenN (fst l) = 16) ls ->
    exists ts, Forall2 (fun l t => text_of AsDomain (fst l) (fst t) /\ text_of AsCode (snd l) (snd t)) ls ts /\ each s e n ls (map show ts)) as G.
  { induction ls as [|l ls IH]; intros n L B Q; [exists []; split; [constructor|exact Logic.I]|]. rewrite lenN_cons in L. inversion B as [|? ? [B1 B2] B3]; subst. inversion Q as [|? ? Q1 Q2]; subst.
    destruct (IH (n + 1)) as (ts & F & E); [lia|assumption..|].
    destruct (C79_env n l s B1 B2 Q1) as (V & _); [lia|].
    destruct (V (str "tag") AsDomain (fst l)) as (_ & (t1 & E1 & T1) & _); [right; left; reflexivity|].
    destruct (V (str "ptr") AsCode (snd l)) as (_ & (t2 & E2 & T2) & _); [left; reflexivity|].
    exists ((t1, t2) :: ts). split; [constructor; [split; assumption|exact F]|]. cbn [map each]. split; [|exact E].
    replace (show (t1, t2)) with (List.concat [[9]; t1; [32]; t2; [10]]) by (unfold show; cbn [List.concat fst snd]; now rewrite app_nil_r).
    eapply gives_evaluates; [|exact PE|]; [discriminate|]. repeat constructor; try apply bytes_gives.
    - eapply evaluates_gives; [|exact E1]. vm_compute. reflexivity.
    - eapply evaluates_gives; [|exact E2]. vm_compute. reflexivity. }
  assert (lenN (pt_links p) < 65536 /\ Forall (fun l : bytes * bytes => lenN (fst l) = 16) (pt_links p)) as [LL LT].
  { destruct PK as (_ & _ & (H & Q) & _). clear - H Q. destruct p as [d|d|g dm c ls rs d|g dm c ls rs d pk sg]; cbn [pt_links point_size] in *; try (split; [reflexivity|constructor]);
      (split; [lia|]); destruct Q as (_ & _ & _ & Q & _); (eapply Forall_impl; [|exact Q]); intros l [E _]; exact E. }
  destruct (G (pt_links p) 0) as (ts & F & E).
  - exact LL.
  - apply (pt_bytes hash b nh p PK).
  - exact LT.
  - exists ts. split; [exact F|]. destruct (C79_each hash HL recv now flags lossy public test b nh p e (map show ts) PK) as (np & V & K); [eexists; exact PE|].
    rewrite (view_packet hash b nh p HL PK) in V. apply ok_inj in V as <-. specialize (K s X E). rewrite flat_map_concat_map. eapply evaluates_gives; [|exact K]. vm_compute. reflexivity.
Qed.

(** In the scope of a packet the expressions [[pkt]], [[netpkt]] and [[point]] give a text with one line for each field, and every
    value stands for that field of the packet: names for group and key that evaluate to them, the space in a form that is read back. *)
Theorem C80_text o b np nh p cs argv s : packet_of hash b nh p -> pt_comps p cs -> view b = Ok np -> user_scope o (Some (scope_of np)) argv = Some s ->
  exists x, shows_packet (fun t v => forall s', extends (core_scope o) s' -> evaluates s' t v)
      (fun t => exists n, forall fuel, (n <= fuel)%nat -> space_str fuel o t = Ok (wire_space cs)) (o_lossy o) (hash (content p)) p x /\
    forall name, In name [str "pkt"; str "netpkt"; str "point"] -> evaluates s (str "[" ++ name ++ str "]") (shown_text x).
Proof.
  intros PK CS VW U. rewrite (view_packet hash b nh p HL PK) in VW. apply ok_inj in VW as <-. destruct (C79_user _ _ _ _ _ _ _ _ _ _ U) as [XC XP]. pose proof (user_enc _ _ _ _ U) as EN.
  pose proof (pt_bytes hash b nh p PK) as (BG & _ & _ & _ & BK & _). pose proof (pt_lens hash b nh p PK) as (LG & _ & _ & LD & LK & _ & LC).
  assert (lenN (pt_links p) < 65536) as LL.
  { destruct PK as (_ & _ & (H & _) & _). clear - H. destruct p; cbn [pt_links point_size] in *; try reflexivity; lia. }
  destruct (field_gives b nh p cs (str "type") AsType [type_byte p] s (lst (str "[type:str]")) PK CS) as (t1 & G1 & T1 & _); [unfold fields_of_packet; do 8 apply in_cons; left; reflexivity|exact XP|vm_compute; reflexivity|].
  destruct (field_gives b nh p cs (str "hash") AsCode (hash (content p)) s (lst (str "[hash:str]")) PK CS) as (t2 & G2 & T2 & _); [unfold fields_of_packet; do 7 apply in_cons; left; reflexivity|exact XP|vm_compute; reflexivity|].
  destruct (field_gives b nh p cs (str "domain") AsDomain (pt_domain p) s (lst (str "[domain:str]")) PK CS) as (t3 & G3 & T3 & _); [unfold fields_of_packet; do 13 apply in_cons; left; reflexivity|exact XP|vm_compute; reflexivity|].
  destruct (field_gives b nh p cs (str "spacename") AsSpace (wire_space cs) s (lst (str "[spacename:str]")) PK CS) as (t4 & G4 & _ & T4); [unfold fields_of_packet; do 18 apply in_cons; left; reflexivity|exact XP|vm_compute; reflexivity|].
  destruct (field_gives b nh p cs (str "create") AsNumber (be_encode 8 (pt_create p)) s (lst (str "[create:str]")) PK CS) as (t5 & G5 & T5 & _); [unfold fields_of_packet; do 14 apply in_cons; left; reflexivity|exact XP|vm_compute; reflexivity|].
  destruct (field_gives b nh p cs (str "links_len") AsNumber (be_encode 2 (lenN (pt_links p))) s (lst (str "[links_len:str]")) PK CS) as (t6 & G6 & T6 & _); [unfold fields_of_packet; do 16 apply in_cons; left; reflexivity|exact XP|vm_compute; reflexivity|].
  destruct (field_gives b nh p cs (str "data_size") AsNumber (be_encode 2 (lenN (pt_data p))) s (lst (str "[data_size:str]")) PK CS) as (t7 & G7 & T7 & _); [unfold fields_of_packet; do 17 apply in_cons; left; reflexivity|exact XP|vm_compute; reflexivity|].
  pose proof (plain_gives b nh p cs (str "group") AsCode (pt_group p) s (lst (str "[group]")) PK CS ltac:(unfold fields_of_packet; do 12 apply in_cons; left; reflexivity) XP ltac:(vm_compute; reflexivity)) as G8.
  pose proof (plain_gives b nh p cs (str "pubkey") AsCode (pt_pubkey p) s (lst (str "[pubkey]")) PK CS ltac:(unfold fields_of_packet; do 10 apply in_cons; left; reflexivity) XP ltac:(vm_compute; reflexivity)) as G9.
  destruct (named_text o s (str "#") (pt_group p) (or_introl eq_refl) BG LG EN) as (t8 & E8 & T8).
  destruct (named_text o s (str "@") (pt_pubkey p) (or_intror eq_refl) BK LK EN) as (t9 & E9 & T9).
  pose proof (encode_gives o s _ _ _ _ XC G8 E8 (ex_intro _ [ABytes (str "group")] eq_refl)) as G8'.
  pose proof (encode_gives o s _ _ _ _ XC G9 E9 (ex_intro _ [ABytes (str "pubkey")] eq_refl)) as G9'.
  destruct (links_gives b nh p s PK XP) as (ts & TL & GL). pose proof (data_gives o b nh p s PK XP XC) as GD.
  cbn [text_of] in T5, T6, T7. rewrite be_decode_encode in T5 by exact LC. rewrite be_decode_encode in T6 by exact LL. rewrite be_decode_encode in T7 by exact LD.
  exists {| sh_type := t1; sh_hash := t2; sh_group := t8; sh_domain := t3; sh_space := t4; sh_pubkey := t9; sh_create := t5; sh_count := t6; sh_links := ts; sh_size := t7; sh_data := o_lossy o (pt_data p) |}.
  split.
  { unfold shows_packet. cbn [sh_type sh_hash sh_group sh_domain sh_space sh_pubkey sh_create sh_count sh_links sh_size sh_data].
    split; [exact T1|]. split; [exact T2|]. split; [exact T8|]. split; [exact T3|]. split; [exact (T4 eq_refl o)|]. split; [exact T9|]. split; [exact T5|]. split; [exact T6|]. split; [exact TL|]. split; [exact T7|reflexivity]. }
  set (x := Build_shown_packet _ _ _ _ _ _ _ _ _ _ _).
  assert (exists n, forall fuel, (n <= fuel)%nat -> eval fuel s fmt_abe = Ok [(None, shown_text x)]) as [n V].
  { rewrite fmt_parts_eq.
    match goal with |- context [eval _ s (?e :: ?es)] => assert (exists vs, Forall2 (gives s) es vs /\ (str "type" ++ [9]) ++ List.concat vs = shown_text x) as (vs & F & EQ) end.
    { eexists. split.
      - repeat (first [apply Forall2_cons; [first [exact G1|exact G2|exact G3|exact G4|exact G5|exact G6|exact G7|exact G8'|exact G9'|exact GL|exact GD|apply bytes_gives]|] | apply Forall2_nil]).
      - unfold shown_text, line, x. cbn [List.concat sh_type sh_hash sh_group sh_domain sh_space sh_pubkey sh_create sh_count sh_links sh_size sh_data]. rewrite <- !app_assoc, app_nil_r. reflexivity. }
    rewrite <- EQ. apply list_eval; [apply bytes_gives|exact F]. }
  intros name I.
  assert (forall ctx, sc_func (scope_of (np_of hash nh p)) ctx name [] true = fmt_fn ctx [] true) as SF.
  { intros ctx. rewrite (proj1 (pkt_flat recv now flags lossy public test (np_of hash nh p))). destruct I as [<-|[<-|[<-|[]]]]; reflexivity. }
  exists [ALst (ABytes name :: args_abe [])], (S (S n)). split; [destruct I as [<-|[<-|[<-|[]]]]; vm_compute; reflexivity|].
  intros [|[|fuel]] L; [lia..|]. rewrite eval_call by (vm_compute; discriminate). unfold call. cbn [tl].
  assert (sc_func s (ctx_of (S fuel) s) name [] true = Ok (Some (shown_text x))) as ->.
  { apply XP. rewrite SF. unfold fmt_fn. assert (parse_abe_strict default_pkt = Ok fmt_abe) as -> by (vm_compute; reflexivity).
    change (c_eval (ctx_of (S fuel) s) fmt_abe) with (eval (S fuel) s fmt_abe). rewrite V by lia. unfold val. cbn [abl_concat flat_map ctr_str app]. now rewrite app_nil_r. }
  eexists. split; reflexivity.
Qed.

Lemma print_call np name f lo hi ts (bs : list bytes) v s : extends (scope_of np) s -> In (init_fn name lo hi f) (print_funcs np recv lossy public test) -> In name [str "pkt-quick"; str "html-quick"; str "netbytes"] ->
  lo <= lenN bs <= hi -> Forall2 reads ts bs -> f bs = Ok (Some v) -> evaluates s (91 :: name ++ args_text ts ++ [93]) v.
Proof.
  intros [X _] I N L R E.
  assert (lo = 0 /\ hi <= 2 /\ find_func name (pkt_funcs recv now flags lossy public test np) = Some (init_fn name lo hi f)) as (-> & H & FF).
  { unfold print_funcs in I. cbn [In] in I. destruct N as [<-|[<-|[<-|[]]]]; repeat destruct I as [I|I]; try contradiction; try discriminate I;
      injection I as <- <- E'; split; try reflexivity; (split; [vm_compute; discriminate|]); unfold init_fn, fn_ctx; try (rewrite <- E'; reflexivity). }
  apply item_evaluates, call_evaluates with name bs; [destruct N as [<-|[<-|[<-|[]]]]; discriminate|lia|destruct N as [<-|[<-|[<-|[]]]]; apply name_reads; reflexivity|exact R|].
  intros fuel. apply X. rewrite (proj1 (pkt_flat recv now flags lossy public test np)), (escope_some _ _ _ _ _ _ _ FF); [exact E|now right|cbn [init_fn fn_ctx f_lo f_hi]; lia].
Qed.
(** [[netbytes]] is the packet. *)
Theorem C80_netbytes b np nh p s : packet_of hash b nh p -> view b = Ok np -> extends (scope_of np) s -> evaluates s (str "[netbytes]") b.
Proof.
  intros PK VW X. rewrite (view_packet hash b nh p HL PK) in VW. apply ok_inj in VW as <-.
  apply (print_call _ (str "netbytes") (fun _ => val (seg_bytes (np_byte_segments (np_of hash nh p)))) 0 0 [] [] b s X); [do 5 apply in_cons; left; reflexivity|right; right; left; reflexivity|vm_compute; split; discriminate|constructor|].
  destruct PK as (-> & _ & (H & _) & _). unfold val. do 2 f_equal. exact (seg_net (mkCrypto hash unit (fun _ => []) (fun _ _ => []) (fun _ _ _ => true)) nh p H).
Qed.
(** [[pkt-quick]] is the text of C73, cut off at the second argument, after a line with the time of receipt if the first one is there and
    neither empty nor `false`. *)
Theorem C80_quick np ts args limit out s : extends (scope_of np) s -> lenN args <= 2 -> Forall2 reads ts args ->
  match args with [_; t] => numeral 10 t limit /\ limit < 2 ^ 64 | _ => limit = 2 ^ 64 - 1 end -> to_str lossy public test limit np = Ok out ->
  exists line, evaluates s (str "[pkt-quick" ++ args_text ts ++ str "]") (line ++ out) /\
  match args with
  | [] | [] :: _ => line = []
  | a :: _ => a = str "false" /\ line = [] \/ a <> str "false" /\ exists t, line = str "recv" ++ [9] ++ t ++ [10] /\ match recv with Some r => canonical t r | None => t = str "???" end
  end.
Proof.
  intros X L R LM E. exists (if match args with [] => false | a :: _ => negb (beqb a (str "false") || beqb a []) end then recv_line recv else []). split.
  - apply (print_call np (str "pkt-quick") (quick_fn np recv lossy public test) 0 2 ts args _ s X); [do 3 apply in_cons; left; reflexivity|left; reflexivity|lia|exact R|].
    assert (match nth_error args 1 with None => Some (2 ^ 64 - 1) | Some t => parse_usize t end = Some limit) as LQ.
    { destruct args as [|a [|t [|? ?]]]; cbn [nth_error]; [now rewrite LM..|now apply usize_iff|]. exfalso. rewrite !lenN_cons in L. lia. }
    unfold quick_fn. rewrite LQ, E. reflexivity.
  - destruct args as [|[|c a] args]; [reflexivity|reflexivity|]. replace (beqb (c :: a) []) with false by reflexivity. rewrite Bool.orb_false_r.
    destruct (beqb (c :: a) (str "false")) eqn:Q; [left; apply beqb_eq in Q; split; [exact Q|reflexivity]|]. right. split; [intros E'; rewrite E' in Q; discriminate|].
    cbn [negb]. unfold recv_line. destruct recv as [r|]; eexists; (split; [reflexivity|]); [apply to_string_canonical|reflexivity].
Qed.
End C80.

(** Equal texts are of packets with the same hash, whatever the data, the names and the scopes are. *)
Lemma no_newline (a b x y : bytes) c : ~ In c a -> ~ In c b -> a ++ c :: x = b ++ c :: y -> a = b /\ x = y.
Proof.
  revert b. induction a as [|u a IH]; intros [|v b] NA NB E; cbn [app] in E.
  - injection E as ->. auto.
  - injection E as -> _. exfalso. apply NB. now left.
  - injection E as <- _. exfalso. apply NA. now left.
  - injection E as -> E. destruct (IH b) as [-> ->]; [intros I; apply NA; now right|intros I; apply NB; now right|exact E|]. auto.
Qed.
Lemma code_no_newline b : bytes_ok b -> ~ In 10 (b64_display b).
Proof. intros O I. destruct (base64_chars b 10 O I) as (d & D & E). pose proof (b64_char_range d D) as Q. cbn zeta in Q. lia. Qed.
Theorem C80_unambiguous hash hash' m m' sp sp' lossy lossy' p p' x x' : bytes_ok (hash (content p)) -> bytes_ok (hash' (content p')) ->
  shows_packet m sp lossy (hash (content p)) p x -> shows_packet m' sp' lossy' (hash' (content p')) p' x' -> shown_text x = shown_text x' -> hash (content p) = hash' (content p') /\ type_byte p = type_byte p'.
Proof.
  intros O O' (T & H & _) (T' & H' & _) E. unfold shown_text, line in E. rewrite <- !app_assoc in E. apply app_inv_head in E. apply app_inv_head in E.
  cbn [text_of] in *. destruct T as (k & K & T), T' as (k' & K' & T'). injection K as K. injection K' as K'.
  apply C44_b64_print in H; [|exact O]. apply C44_b64_print in H'; [|exact O'].
  assert (forall k t, In (k, t) point_names -> ~ In 10 t) as NT.
  { intros k0 t0 I. unfold point_names in I. cbn [In] in I. destruct I as [I|[I|[I|[I|[]]]]]; injection I as <- <-; vm_compute; intuition discriminate. }
  apply no_newline in E as [E1 E2]; [|eapply NT; eassumption..]. apply app_inv_head in E2. apply app_inv_head in E2.
  apply no_newline in E2 as [E2 _]; [|rewrite H; now apply code_no_newline|rewrite H'; now apply code_no_newline].
  split.
  - rewrite H, H' in E2. apply (f_equal base64_decode) in E2. assert (forall b, bytes_ok b -> base64_decode (b64_display b) = Some b) as D.
    { intros y B. apply C44_b64_exact. split; [exact B|now apply C44_b64_print]. }
    rewrite !D in E2 by assumption. congruence.
  - rewrite E1 in T. rewrite K, K'. unfold point_names in T, T'. cbn [In] in T, T'.
    destruct T as [T|[T|[T|[T|[]]]]], T' as [T'|[T'|[T'|[T'|[]]]]]; injection T as <- Q; injection T' as <- Q'; try reflexivity; rewrite <- Q' in Q; discriminate Q.
Qed.

Definition ex_text : bytes := str
  "type	LinkPoint
hash	" ++ b64_display (np_hash ex_np) ++ str "
group	[b:BQUFBQUFBQUFBQUFBQUFBQUFBQUFBQUFBQUFBQUFBQU]
domain	" ++ ab_as_str ex_domain ++ str "
space	/hello/\0\f
pubkey	[@:none]
create	1000
links	2
	a\:b BwcHBwcHBwcHBwcHBwcHBwcHBwcHBwcHBwcHBwcHBwc
	next CAgICAgICAgICAgICAgICAgICAgICAgICAgICAgICAg

data	11
some [data]
".
Example C80_text_ex : packet_of toy_hash ex_bytes ex_nh ex_point /\ pt_comps ex_point [str "hello"; [0; 255]] /\ view ex_bytes = Ok ex_np /\
  user_scope o1 (Some (pkt_scope ex_np (Some 5) 9 (fun _ => []) (fun b => b) (repeat 1 32) (repeat 2 32))) None = Some ex_scope /\ shows (str "[point]") ex_text.
Proof.
  split; [exact ex_packet|]. split; [exact ex_comps|]. split; [vm_compute; reflexivity|]. split; [reflexivity|]. show.
Qed.

Example C80_netbytes_ex : extends (pkt_scope ex_np (Some 5) 9 (fun _ => []) (fun b => b) (repeat 1 32) (repeat 2 32)) ex_scope /\ shows (str "[netbytes]") ex_bytes.
Proof. split; [eapply extends_trans; apply extends_pair|]. show. Qed.
Example C80_quick_ex : Forall2 reads [str "true"; str "4"] [str "true"; str "4"] /\ numeral 10 (str "4") 4 /\
  exists out, to_str (fun b => b) (repeat 1 32) (repeat 2 32) 4 ex_np = Ok out /\ shows (str "[pkt-quick:true:4]") (str "recv" ++ [9] ++ str "5" ++ [10] ++ out).
Proof.
  split; [repeat constructor; apply name_reads; reflexivity|]. split; [now apply usize_iff|]. eexists. split; [vm_compute; reflexivity|]. show.
Qed.
Example C80_unambiguous_ex : exists x, shows_packet (fun _ _ => True) (fun _ => True) (o_lossy o1) (toy_hash (content ex_point)) ex_point x.
Proof.
  destruct (C80_text toy_hash toy_hash32 (Some 5) 9 (fun _ => []) (fun b => b) (repeat 1 32) (repeat 2 32) o1 ex_bytes ex_np ex_nh ex_point [str "hello"; [0; 255]] None ex_scope ex_packet ex_comps) as (x & X & _);
    [vm_compute; reflexivity|reflexivity|]. exists x. unfold shows_packet in *. tauto.
Qed.
(** The help says that [[pkt-quick]] is the same as [[pkt]]: it is not. *)
Theorem F100_quick_differs : exists out, shows (str "[pkt-quick]") out /\ shows (str "[pkt]") ex_text /\ out <> ex_text.
Proof.
  eexists. split; [show|]. split; [show|]. vm_compute. discriminate.
Qed.

Print Assumptions C80_text.
Print Assumptions C80_netbytes.
Print Assumptions C80_quick.
Print Assumptions C80_unambiguous.
Print Assumptions F100_quick_differs.
