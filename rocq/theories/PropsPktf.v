(** * C94: printing packets by templates *)
From Coq Require Import List NArith Lia Bool.
From Verif Require Import Bytes ModelPkt SpecPkt ProofPkt ProofPkt2 PropsPkt ModelPred SpecPred ProofPred PropsPred ModelCollect SpecCollect ProofCollect ProofRewrite ModelPktf SpecPktf.
Import ListNotations.
Local Open Scope N_scope.

Section C94.
  Variable hash : bytes -> bytes.
  Hypothesis HL : hash32 hash.
  Definition valid_pkt (p : NetPktParts) : Prop := exists b nh pt, packet_of hash b nh pt /\ view b = Ok p.
  Definition given (fmts : list Template) : list (option Template) := map Some fmts.

  Lemma kind_type p : valid_pkt p ->
    match kind p with
    | Some 1%nat => point_type (pkt_header (point_parts p)) = 1
    | Some 2%nat => point_type (pkt_header (point_parts p)) = 3
    | Some 3%nat => point_type (pkt_header (point_parts p)) = 7
    | _ => point_type (pkt_header (point_parts p)) = 128
    end.
  Proof. intros (b & nh & pt & P & V). rewrite (view_packet hash b nh pt HL P) in V. injection V as <-. destruct pt; reflexivity. Qed.
  Lemma kind_cases p : kind p = None \/ kind p = Some 1%nat \/ kind p = Some 2%nat \/ kind p = Some 3%nat.
  Proof. unfold kind. destruct (fields (point_parts p)); auto. Qed.
  Lemma templates_eq fmts default : templates (given fmts) default = Ok (template_for fmts default 1, template_for fmts default 2, template_for fmts default 3).
  Proof. unfold templates, given, template_for. destruct fmts as [|a [|b [|c fmts]]]; reflexivity. Qed.
  Lemma template_eq fmts default p : valid_pkt p ->
    template_of (template_for fmts default 1, template_for fmts default 2, template_for fmts default 3) p =
    match kind p with Some k => Ok (template_for fmts default k) | None => Panic end.
  Proof.
    intros V. pose proof (kind_type p V) as T. unfold template_of. destruct (kind_cases p) as [E|[E|[E|E]]]; rewrite E in *; rewrite T; reflexivity.
  Qed.
  Lemma printed_eq private p :
    negb (match private with Some b => b | None => true end) && match parts_group (point_parts p) with Some g => beqb g PRIVATE | None => false end = negb (printed private p).
  Proof.
    destruct private as [[|]|]; try reflexivity. cbn [negb andb printed shown]. destruct (parts_group (point_parts p)); [|reflexivity]. now rewrite negb_involutive.
  Qed.
  Lemma write_act join delim private fwd first p t log f' log' : write join delim private fwd first p t log = Ok (f', log') ->
    f' = false /\ exists a, (forall x, In x a -> exists b, x = Print b) /\
      bytes_printed a = (if join then (if first then [] else delim) ++ t else t ++ delim) /\
      log' = log ++ a ++ map (fun x => Forward (fst x) (snd x)) (direct private fwd p).
  Proof.
    unfold write. destruct (write_multi_dest private false fwd p (mkOut [] [])) as [o| | |] eqn:W; try discriminate. apply write_log in W as [W _]. cbn [o_log app] in W. rewrite W.
    intros E. apply (f_equal (fun x => match x with Ok y => y | _ => (true, []) end)) in E. injection E as <- <-. split; [reflexivity|].
    exists (if join then (if first then [] else [Print delim]) ++ [Print t] else [Print t; Print delim]). split; [|split].
    - intros x I. destruct join, first; cbn in I; repeat (destruct I as [<-|I]; [eauto|]); contradiction.
    - destruct join, first; unfold bytes_printed; cbn; rewrite ?app_nil_r; reflexivity.
    - destruct join, first; cbn [negb andb]; rewrite <- ?app_assoc; reflexivity.
  Qed.

  Section Run.
  Variables (fmts : list Template) (default : Template) (error : option bytes) (join : bool) (delim : bytes) (fast : option (NetPktParts -> bytes)).
  Variables (private : option bool) (forward : list Dest).
  Notation ts3 := (template_for fmts default 1, template_for fmts default 2, template_for fmts default 3).
  Notation loop := (pktf_loop error join delim fast private forward).
  Notation txt := (text_for fmts default error fast).
  Lemma text_eq p t : valid_pkt p ->
    txt p t <-> match fast with
                | Some f => Ok (f p)
                | None => obind (template_of ts3 p) (fun t => match t p, error with Some b, _ => Ok b | None, Some e => Ok e | None, None => Err FEval end)
                end = Ok t.
  Proof.
    intros V. rewrite (template_eq fmts default p V). split.
    - intros [f -> |k b -> K T|k e -> K T E]; [reflexivity|rewrite K; cbn [obind]; now rewrite T|rewrite K; cbn [obind]; now rewrite T, E].
    - destruct fast as [f|] eqn:F; [intros E; injection E as <-; now apply text_fast|]. destruct (kind p) as [k|] eqn:K; cbn [obind]; [|discriminate].
      destruct (template_for fmts default k p) as [b|] eqn:T; [intros E; injection E as <-; now apply (text_made _ _ _ _ _ k)|].
      destruct error as [e|] eqn:ER; [|discriminate]. intros E. injection E as <-. now apply (text_error _ _ _ _ _ k).
  Qed.
  Lemma loop_done vs : forall first log log', Forall valid_pkt (fed vs) -> loop ts3 first vs log = Ok log' ->
    ends vs /\ exists texts l, Forall2 txt (filter (printed private) (fed vs)) texts /\ done_for private forward join delim first (filter (printed private) (fed vs)) texts l /\ log' = log ++ l.
  Proof.
    induction vs as [|v vs IH]; intros first log log' V; [discriminate|]. destruct v as [p| |]; cbn [pktf_loop fed ends]; [|intros E; injection E as <-|discriminate].
    - apply Forall_inv in V as VP. apply Forall_inv_tail in V. rewrite printed_eq. cbn [fed filter]. destruct (printed private p) eqn:PR; cbn [negb].
      + intros E. match type of E with obind ?x _ = _ => destruct x as [t| | |] eqn:T; try discriminate end. cbn [obind] in E.
        destruct (write join delim private forward first p t log) as [[f' l1]| | |] eqn:W; try discriminate. cbn [obind] in E.
        apply write_act in W as (-> & a & A1 & A2 & ->). destruct (IH _ _ _ V E) as (EN & texts & l & F & D & ->). split; [exact EN|].
        exists (t :: texts), (a ++ map (fun x => Forward (fst x) (snd x)) (direct private forward p) ++ l).
        split; [constructor; [now apply text_eq|exact F]|]. split; [now constructor|]. now rewrite <- !app_assoc.
      + intros E. exact (IH _ _ _ V E).
    - split; [exact I|]. exists [], []. split; [constructor|]. split; [constructor|]. now rewrite app_nil_r.
  Qed.
  Lemma done_printed first ps texts l : done_for private forward join delim first ps texts l ->
    bytes_printed l = (if join then match texts with [] => [] | _ => (if first then [] else delim) ++ joined delim texts end else ended delim texts) /\
    forwarded l = flat_map (direct private forward) ps.
  Proof.
    assert (FW : forall ds, bytes_printed (map (fun x : Dest * NetPktParts => Forward (fst x) (snd x)) ds) = [] /\ forwarded (map (fun x => Forward (fst x) (snd x)) ds) = ds).
    { induction ds as [|[d q] ds [I1 I2]]; [split; reflexivity|]. split; [exact I1|]. cbn. f_equal. exact I2. }
    assert (BA : forall x y, bytes_printed (x ++ y) = bytes_printed x ++ bytes_printed y) by (intros; unfold bytes_printed; now rewrite map_app, concat_app).
    assert (FA : forall x y, forwarded (x ++ y) = forwarded x ++ forwarded y) by (intros; unfold forwarded; now rewrite flat_map_app).
    induction 1 as [first|first p ps t texts a l A1 A2 D [I1 I2]]; [split; [now destruct join|reflexivity]|].
    rewrite !BA, !FA, (proj1 (FW _)), (proj2 (FW _)), A2, I1, I2. assert (forwarded a = []) as ->.
    { clear - A1. induction a as [|x a IH]; [reflexivity|]. destruct (A1 x (or_introl eq_refl)) as [b ->]. apply IH. intros y Y. apply A1. now right. }
    split; [|reflexivity]. destruct join; [|unfold ended; cbn [map List.concat app]; now rewrite <- app_assoc].
    destruct texts as [|t2 texts]; cbn [joined app]; [now rewrite app_nil_r|]. now rewrite <- !app_assoc.
  Qed.

  (** Every run that succeeds read the input to its end, and printed the text of each packet: what the template for its type gives, or
      the text for errors; the texts are joined by the delimiter, or end with it; each packet is forwarded after it is printed. *)
  Theorem C94_printed : forall vs log, Forall valid_pkt (fed vs) -> pktf (given fmts) default error join delim fast private forward vs = Ok log ->
    ends vs /\ exists texts, Forall2 txt (filter (printed private) (fed vs)) texts /\
      bytes_printed log = (if join then joined delim texts else ended delim texts) /\
      forwarded log = flat_map (direct private forward) (filter (printed private) (fed vs)) /\
      done_for private forward join delim true (filter (printed private) (fed vs)) texts log.
  Proof.
    intros vs log V. unfold pktf. rewrite templates_eq. cbn [obind]. intros R. destruct (loop_done vs true [] log V R) as (EN & texts & l & F & D & E).
    cbn [app] in E. subst l. split; [exact EN|]. exists texts. split; [exact F|]. destruct (done_printed _ _ _ _ D) as [B W]. split; [|split; [exact W|exact D]].
    rewrite B. destruct join; [|reflexivity]. now destruct texts.
  Qed.

  (** It succeeds when the input is read to its end, each packet to print has a text and the packets may be forwarded. *)
  Theorem C94_succeeds : forall vs texts, Forall valid_pkt (fed vs) -> ends vs -> Forall2 txt (filter (printed private) (fed vs)) texts -> ~ In DBuffer forward ->
    exists log, pktf (given fmts) default error join delim fast private forward vs = Ok log.
  Proof.
    intros vs texts V EN F NB. unfold pktf. rewrite templates_eq. cbn [obind]. generalize (@nil Act) true. revert texts V EN F.
    induction vs as [|v vs IH]; intros texts V EN F log first; [contradiction|]. destruct v as [p| |]; cbn [pktf_loop fed ends] in *; [|eauto|contradiction].
    apply Forall_inv in V as VP. apply Forall_inv_tail in V. rewrite printed_eq. cbn [filter] in F. destruct (printed private p) eqn:PR; cbn [negb]; [|eapply IH; eassumption].
    inversion F as [|? t ? texts' T F' X1 X2]; subst. rewrite (proj1 (text_eq p t VP) T). cbn [obind]. unfold write at 1.
    assert (exists o, write_multi_dest private false forward p (mkOut [] []) = Ok o) as [o ->].
    { clear - NB PR. generalize (mkOut [] []). induction forward as [|d ds IH]; intros o; [eexists; reflexivity|]. cbn [write_multi_dest]. unfold write_dest.
      assert (exists ok, check_write private p = Ok ok) as [ok ->].
      { unfold check_write. unfold printed, shown in PR. destruct private as [[|]|]; [eauto| |].
        - destruct (check_private_cases (parts_group (point_parts p))) as [-> |[_ G]]; [eauto|]. rewrite G in PR. discriminate PR.
        - destruct (check_private (parts_group (point_parts p))); eauto. }
      cbn [obind]. destruct ok; cbn [negb]; [|cbn [obind]; apply IH; intros I; apply NB; now right].
      destruct d as [n| |]; [| |now destruct NB; left]; cbn [obind]; apply IH; intros I; apply NB; now right. }
    cbn [obind]. eapply IH; eassumption.
  Qed.
  End Run.

  (** An error point in the input stops the command with a panic, also when a text for errors is given. *)
  Theorem C94_error_point_refuted : forall fmts default error join delim private forward b nh d vs,
    packet_of hash b nh (PError d) -> exists p, view b = Ok p /\
      pktf (given fmts) default error join delim None private forward (FPkt p :: vs) = Panic.
  Proof.
    intros fmts default error join delim private forward b nh d vs P. exists (np_of hash nh (PError d)). split; [exact (view_packet hash b nh (PError d) HL P)|].
    unfold pktf. rewrite templates_eq. cbn [obind pktf_loop]. rewrite printed_eq. assert (printed private (np_of hash nh (PError d)) = true) as -> by (destruct private as [[|]|]; reflexivity).
    reflexivity.
  Qed.
  (** Without the option --private a packet of the private group is printed, but not forwarded: with --inspect the packets that go on are
      not those that were printed. *)
  Theorem C94_inspect_refuted : forall fmts default error join delim fast b nh pt vs log p,
    packet_of hash b nh pt -> in_private_group pt -> view b = Ok p -> ends vs -> fed vs = [p] ->
    pktf (given fmts) default error join delim fast None [DOut 0] vs = Ok log ->
    (exists t, text_for fmts default error fast p t /\ bytes_printed log = if join then t else t ++ delim) /\ forwarded log = [].
  Proof.
    intros fmts default error join delim fast b nh pt vs log p P PG V EN FD R.
    assert (VP : Forall valid_pkt (fed vs)) by (rewrite FD; constructor; [exists b, nh, pt; auto|constructor]).
    destruct (C94_printed fmts default error join delim fast None [DOut 0] vs log VP R) as (_ & texts & F & B & W & _). rewrite FD in F, W. cbn [filter printed] in F, W.
    inversion F as [|? t ? ts T F' X1 X2]; subst. inversion F'; subst. split.
    - exists t. split; [exact T|]. rewrite B. destruct join; [reflexivity|]. unfold ended. cbn. now rewrite app_nil_r.
    - rewrite W. cbn [flat_map]. rewrite (view_packet hash b nh pt HL P) in V. injection V as <-. unfold direct, shown.
      assert (parts_group (point_parts (np_of hash nh pt)) = point_group pt) as -> by (destruct pt; reflexivity). rewrite PG. reflexivity.
  Qed.
  (** Templates after the third are ignored, even if they cannot be read. *)
  Theorem F133_more_templates : forall a b c more default, templates (Some a :: Some b :: Some c :: more) default = Ok (a, b, c).
  Proof. reflexivity. Qed.
End C94.

(** The hash of each packet, with a text of their own for key points that fails. *)
Definition ex_fmts : list Template := [fun p => Some [1]; fun p => Some (takeN 2 (np_hash p)); fun _ => None].
Definition ex_in : list FmtEvent :=
  [FPkt (np_of toy_hash ex_nh (PData ex_data)); FPkt (np_of toy_hash ex_nh PropsPred.ex_point); FEnd].
Example C94_ex : Forall (valid_pkt toy_hash) (fed ex_in) /\ ends ex_in /\
  match pktf (given ex_fmts) (fun _ => None) (Some [7]) true [44] None None [DOut 0] ex_in with
  | Ok log => bytes_printed log = [1] ++ [44] ++ takeN 2 (toy_hash (content PropsPred.ex_point)) /\ List.length (forwarded log) = 2%nat
  | _ => False
  end.
Proof.
  split.
  { constructor; [|constructor; [|constructor]].
    - exists (packet toy_hash ex_nh (PData ex_data)), ex_nh, (PData ex_data).
      assert (P : packet_of toy_hash (packet toy_hash ex_nh (PData ex_data)) ex_nh (PData ex_data)).
      { split; [reflexivity|]. split; [reflexivity|]. split; [split; [now vm_compute|exact I]|]. apply bytes_okb. vm_compute. reflexivity. }
      split; [exact P|exact (view_packet toy_hash _ _ _ toy_hash32 P)].
    - exists PropsPred.ex_pkt, ex_nh, PropsPred.ex_point. split; [exact ex_packet_of|exact (view_packet toy_hash _ _ _ toy_hash32 ex_packet_of)]. }
  split; [exact I|]. vm_compute. split; reflexivity.
Qed.
Print Assumptions C94_printed.
Print Assumptions C94_succeeds.
Print Assumptions C94_error_point_refuted.
Print Assumptions C94_inspect_refuted.
Print Assumptions F133_more_templates.
