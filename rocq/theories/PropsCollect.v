(** * C87: collecting packets *)
From Coq Require Import List NArith ZArith Lia Bool Arith.
From Verif Require Import Bytes ModelPkt ModelAbe ModelEval ModelReader SpecSpace SpecPkt ProofPkt ProofPkt2 PropsPkt
  SpecReader ProofReader3 ProofReader4 ModelCollect SpecCollect ProofCollect ProofCollect2 PropsReader.
Import ListNotations.
Local Open Scope N_scope.

(** What the options evaluate to: tags have 16 bytes and links are links. *)
Definition sound_options (tag : NetPktParts -> option bytes) (chain : option (NetPktParts -> option bytes))
  (extra : NetPktParts -> option (list (bytes * bytes))) : Prop :=
  (forall p t, tag p = Some t -> lenN t = 16) /\
  (forall f p t, chain = Some f -> f p = Some t -> lenN t = 16) /\
  (forall p l, extra p = Some l -> Forall link_ok l).
Definition sound_input (vs : list Event) : Prop := forall p, In (VPkt p) vs -> lenN (np_hash p) = 32.

Lemma run_of fuel s c nh g dm cs key stamp private forward write ae m iv tag chain extra init r vs k rs e :
  (forall b, lenN (hash c b) = 32) -> sound_options tag chain extra -> Forall link_ok init -> sound_input vs ->
  collect fuel s c nh g dm (wire_space cs) (wire_rooted cs) key stamp private forward write ae m iv tag chain extra init r vs
    = Ok (k, rs, e) ->
  outcome_of fuel s c nh g dm cs key stamp private forward write ae m tag chain extra
    (mkCol init 0 (mkOut [] []) r 0) init [] [] (received vs) (exists b, In (VTimeout b) vs) k rs e.
Proof.
  intros HC (TO & CO & BO) IO SI C. eapply loop_run; try eassumption.
  - apply (pending_nil private forward tag (mkCol init 0 (mkOut [] []) r 0)); auto.
  - unfold limit. change (lenN (@nil NetPktParts)) with 0. lia.
Qed.

(** A run that ends with its input: the packets received, in order, in groups; each group has
    one result, whose links are the ones it starts with and then one for each packet of the
    group.  What a result starts with, its data and its fields are what the options say.
    Missing: runs that end as there is no more data, see [C87_data_refuted]. *)
Theorem C87_links_partial : forall fuel s c nh g dm cs key stamp private forward write ae m iv tag chain extra init r vs k rs,
  (forall b, lenN (hash c b) = 32) -> sound_options tag chain extra -> Forall link_ok init -> sound_input vs ->
  collect fuel s c nh g dm (wire_space cs) (wire_rooted cs) key stamp private forward write ae m iv tag chain extra init r vs
    = Ok (k, rs, InputEnd) ->
  exists gs fs bs r',
    List.concat gs = received vs /\
    results c nh (point_with c g dm (wire_rooted cs) key stamp)
      ((match key with Some _ => 64924 | None => 64960 end) - lenN (wire_rooted cs)) tag chain extra 0 init gs fs bs rs /\
    reading fuel s r fs bs r' /\
    Forall (fun x => lenN x <= N.max 1 m) gs /\
    (untimed vs -> forall i, (S i < List.length gs)%nat -> lenN (nth i gs []) = N.max 1 m) /\
    (ae = false -> chain = None -> (forall p l, extra p = Some l -> l = []) -> init = [] -> Forall (fun x => x <> []) gs) /\
    c_out k = mkOut (groups_log private forward write gs rs) [].
Proof.
  intros until rs. intros HC SO IO SI C.
  destruct (run_of _ _ _ _ _ _ _ _ _ _ _ _ _ _ _ _ _ _ _ _ _ _ _ _ HC SO IO SI C)
    as (gs & lost & unread & fs & bs & r' & RV & RS & RD & IE & DE & LG & BF & LI & EX & NN).
  destruct (IE eq_refl) as [-> ->]. rewrite !app_nil_r in RV.
  exists gs, fs, bs, r'. split; [now symmetry|]. split; [exact RS|]. split; [exact RD|]. split; [exact LI|].
  split; [intros U; apply EX; intros [b I]; exact (U b I)|]. split; [exact NN|].
  destruct (c_out k) as [L B]. cbn in LG, BF. rewrite app_nil_r in LG. now subst.
Qed.

(** The example: five packets, two for each result, each result linked to the one before. *)
Definition ex_tag : NetPktParts -> option bytes := fun _ => Some (repeat 5 16).
Definition ex_chain : option (NetPktParts -> option bytes) := Some (fun _ => Some (repeat 6 16)).
Definition ex_no_links : NetPktParts -> option (list (bytes * bytes)) := fun _ => Some [].
Definition ex_pkt (n : N) : NetPktParts := net_of toy ex_nh (PLink ex_group ex_domain n [] (wire_rooted []) [n]).
Definition ex_secret (n : N) : NetPktParts := net_of toy ex_nh (PLink PRIVATE ex_domain n [] (wire_rooted []) [n]).
Definition ex_run (private : option bool) (forward write : list Dest) (ae : bool) (m : N) (iv : bool) (r : Reader) (vs : list Event) :=
  collect 1000 snone toy ex_nh ex_group ex_domain (wire_space []) (wire_rooted []) None (fun k => N.of_nat k)
    private forward write ae m iv ex_tag ex_chain ex_no_links [] r vs.
Lemma ex_options : sound_options ex_tag ex_chain ex_no_links.
Proof.
  split; [intros p t E; now injection E as <-|]. split; [intros f p t E1 E2; injection E1 as <-; now injection E2 as <-|].
  intros p l E. injection E as <-. constructor.
Qed.
Lemma toy_hash_len b : lenN (hash toy b) = 32.
Proof.
  unfold toy. cbn [hash]. unfold toy_hash. rewrite lenN_app. unfold lenN. rewrite !be_encode_length. reflexivity.
Qed.
Definition ex_events : list Event := [VPkt (ex_pkt 1); VPkt (ex_pkt 2); VPkt (ex_secret 3); VPkt (ex_pkt 4); VPkt (ex_pkt 5); VEnd].
Example C87_links_ex :
  sound_options ex_tag ex_chain ex_no_links /\ sound_input ex_events /\ untimed ex_events /\
  match ex_run None [DBuffer; DDb] [DOut 0] false 2 false (open_reader plain_opts None) ex_events with
  | Ok (k, rs, e) =>
      e = InputEnd /\ List.length rs = 3%nat /\
      map (fun p => match fields (point_parts p) with FLink lp => List.length (links (ModelPkt.tail lp)) | _ => 0%nat end) rs = [2; 3; 2]%nat /\
      map fst (o_log (c_out k)) = [DDb; DDb; DOut 0; DOut 0; DOut 0; DDb; DOut 0; DOut 0; DDb; DOut 0; DOut 0]
  | _ => False
  end.
Proof.
  split; [exact ex_options|]. split; [intros p I; repeat (destruct I as [I|I]; [injection I as <- || discriminate; apply toy_hash_len|]); repeat (destruct I as [I|I]; [discriminate|]); destruct I|].
  split; [intros b I; repeat (destruct I as [I|I]; [discriminate|]); destruct I|].
  vm_compute. repeat split.
Qed.
Print Assumptions C87_links_partial.

(** Without [--private] nothing of the private group is written, by any run. *)
Theorem C87_private : forall fuel s c nh g dm cs key stamp private forward write ae m iv tag chain extra init r vs k rs e,
  (forall b, lenN (hash c b) = 32) -> sound_options tag chain extra -> Forall link_ok init -> sound_input vs ->
  collect fuel s c nh g dm (wire_space cs) (wire_rooted cs) key stamp private forward write ae m iv tag chain extra init r vs
    = Ok (k, rs, e) ->
  private <> Some true ->
  Forall (fun x => parts_group (point_parts (snd x)) <> Some PRIVATE) (o_log (c_out k)).
Proof.
  intros until e. intros HC SO IO SI C NP.
  destruct (run_of _ _ _ _ _ _ _ _ _ _ _ _ _ _ _ _ _ _ _ _ _ _ _ _ HC SO IO SI C)
    as (gs & lost & unread & fs & bs & r' & RV & RS & RD & IE & DE & LG & BF & _).
  assert (SH : forall p, shown private p = true -> parts_group (point_parts p) <> Some PRIVATE).
  { intros p S E. unfold shown in S. rewrite E, beqb_refl in S. destruct private as [[|]|]; [now apply NP|discriminate|discriminate]. }
  assert (D : forall ds p, Forall (fun x : Dest * NetPktParts => parts_group (point_parts (snd x)) <> Some PRIVATE) (direct private ds p)).
  { intros ds p. unfold direct. destruct (shown private p) eqn:S; [|constructor]. apply Forall_forall. intros x I.
    apply in_map_iff in I as (d & <- & _). now apply SH. }
  assert (DF : forall ds l, Forall (fun x : Dest * NetPktParts => parts_group (point_parts (snd x)) <> Some PRIVATE) (flat_map (direct private ds) l)).
  { intros ds l. induction l; [constructor|]. cbn. apply Forall_app. split; auto. }
  assert (B : forall ds p, Forall (fun q => parts_group (point_parts q) <> Some PRIVATE) (buffered private ds p)).
  { intros ds p. unfold buffered. destruct (shown private p) eqn:S; [|constructor]. apply Forall_forall. intros x I.
    apply in_map_iff in I as (d & <- & _). now apply SH. }
  assert (BFl : forall ds l, Forall (fun q => parts_group (point_parts q) <> Some PRIVATE) (flat_map (buffered private ds) l)).
  { intros ds l. induction l; [constructor|]. cbn. apply Forall_app. split; auto. }
  rewrite LG. cbn [app]. apply Forall_app. split; [|apply DF]. clear - D DF B BFl.
  revert rs. induction gs as [|x gs IH]; intros [|p rs]; cbn [groups_log]; try constructor.
  apply Forall_app. split; [|apply IH]. unfold group_log. apply Forall_app. split; [apply DF|].
  apply Forall_app. split; [apply D|]. rewrite Forall_map. cbn [snd]. apply Forall_app. split; [apply BFl|apply B].
Qed.
Example C87_private_ex :
  match ex_run None [DOut 0] [DDb] false 2 false (open_reader plain_opts None) [VPkt (ex_secret 1); VPkt (ex_pkt 2); VEnd],
        ex_run (Some true) [DOut 0] [DDb] false 2 false (open_reader plain_opts None) [VPkt (ex_secret 1); VPkt (ex_pkt 2); VEnd],
        ex_run (Some false) [DOut 0] [DDb] false 2 false (open_reader plain_opts None) [VPkt (ex_secret 1); VPkt (ex_pkt 2); VEnd] with
  | Ok (k, _, _), Ok (k', _, _), Err e =>
      List.length (o_log (c_out k)) = 3%nat /\ List.length (o_log (c_out k')) = 4%nat /\ e = EPrivate
  | _, _, _ => False
  end.
Proof. vm_compute. auto. Qed.
Print Assumptions C87_private.

(** With [--private false] a run in which a packet of the private group was to be written does
    not succeed. *)
Theorem C87_private_fails : forall fuel s c nh g dm cs key stamp forward write ae m iv tag chain extra init r vs k rs,
  forward <> [] ->
  collect fuel s c nh g dm (wire_space cs) (wire_rooted cs) key stamp (Some false) forward write ae m iv tag chain extra init r vs
    = Ok (k, rs, InputEnd) ->
  Forall (fun p => parts_group (point_parts p) <> Some PRIVATE) (received vs).
Proof.
  intros until rs. intros FN C. unfold collect in C. revert C. generalize (mkCol init 0 (mkOut [] []) r 0).
  intros k0 C. revert k0 rs C. induction vs as [|v vs IH]; intros k0 rs C; [constructor|].
  destruct v as [p|st| |]; cbn [received]; try constructor; cbn [collect_loop] in C.
  - unfold new_pkt in C. destruct (tag p) as [t|]; [|discriminate].
    destruct forward as [|d ds]; [congruence|]. cbn [write_multi_dest] in C. unfold write_dest, check_write in C.
    intros E. rewrite E in C. unfold check_private in C. rewrite beqb_refl in C. discriminate.
  - destruct (new_pkt (Some false) forward m tag k0 p) as [[k1 full]| | |]; try discriminate. cbn [obind] in C.
    destruct full; [|eapply IH; exact C].
    destruct (collect_now _ _ _ _ _ _ _ _ _ _ _ _ _ _ _ k1) as [[[k2 made] [|]]| | |]; try discriminate. cbn [obind] in C.
    destruct (collect_loop _ _ _ _ _ _ _ _ _ _ _ _ _ _ _ _ _ _ _ k2 vs) as [[[k3 l] e]| | |] eqn:L; try discriminate.
    cbn [obind] in C. injection C as <- _ ->. eapply IH. exact L.
  - destruct st; [|eapply IH; exact C].
    destruct (collect_now _ _ _ _ _ _ _ _ _ _ _ _ _ _ _ k0) as [[[k2 made] [|]]| | |]; try discriminate. cbn [obind] in C.
    destruct (collect_loop _ _ _ _ _ _ _ _ _ _ _ _ _ _ _ _ _ _ _ k2 vs) as [[[k3 l] e]| | |] eqn:L; try discriminate.
    cbn [obind] in C. injection C as <- _ ->. eapply IH. exact L.
Qed.
Example C87_private_fails_ex :
  match ex_run (Some false) [DOut 0] [DDb] false 2 false (open_reader plain_opts None) [VPkt (ex_pkt 1); VPkt (ex_pkt 2); VEnd] with
  | Ok (_, _, e) => e = InputEnd
  | _ => False
  end.
Proof. vm_compute. reflexivity. Qed.
Print Assumptions C87_private_fails.

(** Points without data: a run whose expressions have values and whose links fit does not fail. *)
Theorem C87_runs : forall fuel s c nh g dm cs key stamp private forward write ae m iv tag chain extra init o vs B,
  (forall b, lenN (hash c b) = 32) -> space_ok cs -> (List.length cs <= 8)%nat -> private <> Some false ->
  (forall p, exists t, tag p = Some t /\ lenN t = 16) ->
  (forall f p, chain = Some f -> exists t, f p = Some t /\ lenN t = 16) ->
  (forall p, exists l, extra p = Some l /\ Forall link_ok l /\ 1 + lenN l <= B) -> Forall link_ok init -> lenN init <= B ->
  (match key with Some _ => 160 | None => 64 end) + 48 * (B + N.max 1 m) + lenN (wire_rooted cs) <= 65024 ->
  lenN vs < limit_of o -> sound_input vs -> ~ In VBad vs -> ~ In VEnd vs ->
  exists k rs,
    collect fuel s c nh g dm (wire_space cs) (wire_rooted cs) key stamp private forward write ae m iv tag chain extra init
      (open_reader o None) (vs ++ [VEnd]) = Ok (k, rs, InputEnd).
Proof.
  intros until B. intros HC SO S8 PR TO CO BO IO IB FIT LM SI NB NE. unfold collect.
  eapply loop_total with (B := B); try eassumption.
  - constructor; cbn [c_links c_current c_reader]; auto; [lia|]. unfold open_reader, limit_of in *. cbn [r_call_limit]. lia.
  - cbn [c_current]. lia.
Qed.
Example C87_runs_ex : exists k rs,
  ex_run None [DOut 0] [DOut 0] true 1337 true (open_reader plain_opts None) (repeat (VPkt (ex_pkt 1)) 20 ++ [VTimeout true; VTimeout true] ++ [VEnd])
  = Ok (k, rs, InputEnd) /\ List.length rs = 3%nat.
Proof.
  destruct (ex_run None [DOut 0] [DOut 0] true 1337 true (open_reader plain_opts None)
             (repeat (VPkt (ex_pkt 1)) 20 ++ [VTimeout true; VTimeout true] ++ [VEnd])) as [[[k rs] e]| | |] eqn:E;
    [|vm_compute in E; discriminate..].
  exists k, rs. split.
  - f_equal. f_equal. enough (Q : match ex_run None [DOut 0] [DOut 0] true 1337 true (open_reader plain_opts None)
       (repeat (VPkt (ex_pkt 1)) 20 ++ [VTimeout true; VTimeout true] ++ [VEnd]) with Ok (_, _, e) => e = InputEnd | _ => False end)
      by (now rewrite E in Q). vm_compute. reflexivity.
  - enough (Q : match ex_run None [DOut 0] [DOut 0] true 1337 true (open_reader plain_opts None)
       (repeat (VPkt (ex_pkt 1)) 20 ++ [VTimeout true; VTimeout true] ++ [VEnd]) with Ok (_, l, _) => List.length l = 3%nat | _ => False end)
      by (now rewrite E in Q). vm_compute. reflexivity.
Qed.
Print Assumptions C87_runs.

(** A result links the hash. *)
Definition links_hash (p : NetPktParts) (h : bytes) : Prop :=
  match fields (point_parts p) with FLink lp | FKey lp _ => In h (map snd (links (ModelPkt.tail lp))) | _ => False end.
(** A command that succeeds has not linked all packets it received, nor forwarded all of them:
    when there is no data for the next point, the packets since the last one are lost. *)
Theorem C87_data_refuted : ~ (forall r vs k rs e,
  ex_run None [DBuffer] [DOut 0] false 2 false r vs = Ok (k, rs, e) ->
  forall q, In q (received vs) -> (exists p, In p rs /\ links_hash p (np_hash q)) \/ In (DOut 0, q) (o_log (c_out k))).
Proof.
  intros H.
  set (r := open_reader (mkDataOpts None None (Some 1) None false false) None).
  set (vs := [VPkt (ex_pkt 1); VPkt (ex_pkt 2); VPkt (ex_pkt 3); VPkt (ex_pkt 4); VEnd]).
  assert (E : match ex_run None [DBuffer] [DOut 0] false 2 false r vs with
              | Ok (k, rs, e) => e = DataEnd /\
                  existsb (fun p => match fields (point_parts p) with
                                    | FLink lp => existsb (fun l => beqb (snd l) (np_hash (ex_pkt 3))) (links (ModelPkt.tail lp))
                                    | FKey _ _ => true | _ => false end) rs = false /\
                  existsb (fun x => beqb (np_hash (snd x)) (np_hash (ex_pkt 3))) (o_log (c_out k)) = false
              | _ => False end) by (vm_compute; auto).
  destruct (ex_run None [DBuffer] [DOut 0] false 2 false r vs) as [[[k rs] e]| | |] eqn:R; try contradiction.
  destruct E as (_ & E1 & E2).
  destruct (H r vs k rs e R (ex_pkt 3)) as [(p & I & L)|I]; [right; right; now left| |].
  - enough (existsb (fun p => match fields (point_parts p) with
       | FLink lp => existsb (fun l => beqb (snd l) (np_hash (ex_pkt 3))) (links (ModelPkt.tail lp))
       | FKey _ _ => true | _ => false end) rs = true) by congruence.
    apply existsb_exists. exists p. split; [assumption|]. unfold links_hash in L.
    destruct (fields (point_parts p)); try contradiction; [|reflexivity].
    apply in_map_iff in L as (l & LE & LI). apply existsb_exists. exists l. split; [assumption|]. rewrite LE. apply beqb_refl.
  - enough (existsb (fun x => beqb (np_hash (snd x)) (np_hash (ex_pkt 3))) (o_log (c_out k)) = true) by congruence.
    apply existsb_exists. eexists. split; [exact I|]. apply beqb_refl.
Qed.
Print Assumptions C87_data_refuted.

(** Without [--allow-empty] there are still results for no packet, when results are chained. *)
Theorem C87_empty_refuted : ~ (forall forward write m iv r vs k rs e,
  ex_run None forward write false m iv r vs = Ok (k, rs, e) -> (List.length rs <= List.length (received vs))%nat).
Proof.
  intros H. assert (E : match ex_run None [] [] false 1 false (open_reader plain_opts None) [VPkt (ex_pkt 1); VEnd] with
    | Ok (_, rs, _) => List.length rs = 2%nat | _ => False end) by (vm_compute; reflexivity).
  destruct (ex_run None [] [] false 1 false (open_reader plain_opts None) [VPkt (ex_pkt 1); VEnd]) as [[[k rs] e]| | |] eqn:R; try contradiction.
  specialize (H _ _ _ _ _ _ _ _ _ R). rewrite E in H. cbn in H. lia.
Qed.
Print Assumptions C87_empty_refuted.

(** With an interval, input that is not a packet ends the command as the end of the input does:
    the command succeeds. *)
Theorem F119_bad_input : forall fuel s c nh g dm cs key stamp private forward write ae m tag chain extra init r vs w,
  collect fuel s c nh g dm (wire_space cs) (wire_rooted cs) key stamp private forward write ae m true tag chain extra init r (vs ++ VBad :: w) =
  collect fuel s c nh g dm (wire_space cs) (wire_rooted cs) key stamp private forward write ae m true tag chain extra init r (vs ++ [VEnd]).
Proof.
  intros until w. unfold collect. generalize (mkCol init 0 (mkOut [] []) r 0).
  induction vs as [|v vs IH]; intros k; [reflexivity|]. cbn [app collect_loop].
  destruct v as [p|st| |]; try reflexivity.
  - destruct (new_pkt private forward m tag k p) as [[k1 full]| | |]; try reflexivity. cbn [obind].
    destruct full; [|apply IH]. destruct (collect_now _ _ _ _ _ _ _ _ _ _ _ _ _ _ _ k1) as [[[k2 made] [|]]| | |]; try reflexivity.
    cbn [obind]. now rewrite IH.
  - destruct st; [|apply IH]. destruct (collect_now _ _ _ _ _ _ _ _ _ _ _ _ _ _ _ k) as [[[k2 made] [|]]| | |]; try reflexivity.
    cbn [obind]. now rewrite IH.
Qed.
Print Assumptions F119_bad_input.
