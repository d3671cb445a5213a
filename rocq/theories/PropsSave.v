(** * C91: saving a stream of packets *)
From Coq Require Import List NArith Lia Bool.
From Verif Require Import Bytes ModelSpace SpecSpace ModelPkt SpecPkt ProofPkt2 PropsPkt SpecTree ModelStore SpecStore ProofStore PropsStore ModelCollect SpecCollect ProofCollect ProofRewrite ModelSave SpecSave PropsLinks.
Import ListNotations.
Local Open Scope N_scope.

Lemma saves_seen private news olds seen ps new log : saves private news olds seen ps new log ->
  forall seen', (forall h, In h seen <-> In h seen') -> saves private news olds seen' ps new log.
Proof.
  induction 1 as [seen|seen p ps new log NI _ IH|seen p ps new log I _ IH]; intros seen' E.
  - constructor.
  - constructor; [now rewrite <- E|]. apply IH. intros h. cbn [In]. now rewrite E.
  - apply saves_old; [now rewrite <- E|]. now apply IH.
Qed.
Lemma outputs_eq ds b : outputs ds b = filter (fun x => negb (is_db x)) (if b then ds ++ [DOut 0] else ds).
Proof.
  unfold outputs. assert (forall ds, filter (fun d => match d with DDb => false | _ => true end) ds = filter (fun x => negb (is_db x)) ds) as ->.
  { clear. induction ds as [|d ds IH]; [reflexivity|]. cbn [filter]. rewrite IH. now destruct d. }
  destruct b; [now rewrite filter_app|now rewrite app_nil_r].
Qed.

Section C91.
  Variables (f : nat -> faults) (now : nat -> N) (private : option bool).

  Lemma one i d l p d' st : represents d l -> save_one (f i) (now i) d p = (d', Ok st) ->
    (is_written st = true /\ ~ In (np_hash p) (hashes l) /\ exists s, represents d' (l ++ [(s, p)])) \/
    (is_written st = false /\ In (np_hash p) (hashes l) /\ d' = d).
  Proof.
    intros R E. assert (L : lk_save (f i) (now i) d p = (d', Ok (is_written st))) by (unfold lk_save; rewrite E; now destruct st).
    destruct (C26_lk_save_truthful _ _ _ _ _ _ _ R L) as (A & B & C). destruct (is_written st).
    - left. split; [reflexivity|]. split; [now apply A|now apply C].
    - right. split; [reflexivity|]. split; [|now apply B]. destruct (in_dec (list_eq_dec N.eq_dec) (np_hash p) (hashes l)) as [I|I]; [exact I|]. apply A in I. discriminate.
  Qed.
  Lemma one_fails i d p d' o : save_one (f i) (now i) d p = (d', o) -> (forall st, o <> Ok st) -> forall l, represents d l -> d' = d.
  Proof.
    unfold save_one. destruct (save (f i) (now i) d [(p, Pending)]) as [[d1 ps1] r] eqn:S. intros E NO l R. injection E as <- <-.
    destruct r as [[a b]|e| |]; try (apply (save_not_ok _ _ _ _ _ _ _ S); congruence). exfalso.
    destruct (save_ok _ _ _ _ _ _ _ _ _ R S) as (A & _). cbn [expected] in A.
    destruct (existsb _ _); cbn [fst] in A; subst ps1; cbn [obind] in NO; eapply NO; reflexivity.
  Qed.

  (** The first packets of the stream, as far as the command came. *)
  Lemma loop_saves news olds vs : forall i d l o d' o' res, represents d l -> save_loop f now private news olds i vs d o = (d', o', res) ->
    exists done rest l' log, received vs = done ++ rest /\ represents d' (l ++ l') /\ o_log o' = o_log o ++ log /\
      (res = Ok tt -> rest = []) /\
      (saves private news olds (hashes l) done (map snd l') log \/
       exists before p new tail e, res = e /\ e <> Ok tt /\ done = before ++ [p] /\ saves private news olds (hashes l) before new log /\
         saves private news olds (hashes l) done (map snd l') (log ++ tail)).
  Proof.
    assert (NONE : forall d l (o : Out), represents d l -> represents d (l ++ []) /\ o_log o = o_log o ++ []) by (intros; now rewrite !app_nil_r).
    induction vs as [|v vs IH]; intros i d l o d' o' res R E.
    - injection E as <- <- <-. exists [], [], [], []. destruct (NONE d l o R). split; [reflexivity|]. split; [assumption|]. split; [assumption|]. split; [discriminate|]. left. constructor.
    - destruct v as [p|b| |]; cbn [save_loop received] in E |- *.
      + destruct (save_one (f i) (now i) d p) as [d1 [st|e| |]] eqn:S1.
        2-4: assert (d1 = d) by (apply (one_fails i d p d1 _ S1) with (l := l); [congruence|exact R]); subst d1; injection E as <- <- <-;
          exists [], (p :: received vs), [], []; destruct (NONE d l o R); split; [reflexivity|]; split; [assumption|]; split; [assumption|]; split; [discriminate|]; left; constructor.
        assert (exists add, represents d1 (l ++ add) /\ forall ps l' log, saves private news olds (hashes (l ++ add)) ps l' log ->
          saves private news olds (hashes l) (p :: ps) (map snd add ++ l') (direct private (if is_written st then news else olds) p ++ log)) as (add & R1 & ST).
        { destruct (one i d l p d1 st R S1) as [(W & NI & s & R1)|(W & I & ->)]; rewrite W.
          - exists [(s, p)]. split; [exact R1|]. intros ps l' log H. cbn [map snd app]. apply saves_new; [exact NI|]. apply (saves_seen _ _ _ _ _ _ _ H).
            intros h. unfold hashes. rewrite map_app, in_app_iff. cbn. tauto.
          - exists []. rewrite (app_nil_r l). split; [exact R|]. intros ps l' log H. now apply saves_old. }
        destruct (write_multi_dest private false (if is_written st then news else olds) p o) as [o1|e| |] eqn:W.
        2-4: injection E as <- <- <-; exists [p], (received vs), add, []; destruct (NONE d l o R) as [_ NO]; split; [reflexivity|]; split; [exact R1|]; split; [exact NO|]; split; [discriminate|];
          right; exists [], p, []; eexists; eexists; split; [reflexivity|]; split; [discriminate|]; split; [reflexivity|]; split; [constructor|];
          rewrite <- (app_nil_r (map snd add)); cbn [app]; apply ST; constructor.
        destruct (write_log _ _ _ _ _ W) as [L1 _].
        destruct (IH _ _ _ _ _ _ _ R1 E) as (done & rest & l' & log & RV & R2 & LG & OK & SV).
        exists (p :: done), rest, (add ++ l'), (direct private (if is_written st then news else olds) p ++ log). split; [cbn; now rewrite RV|].
        split; [now rewrite app_assoc|]. split; [now rewrite LG, L1, app_assoc|]. split; [exact OK|]. rewrite map_app.
        destruct SV as [SV|(before & q & new & tl & e & E1 & E2 & -> & S2 & S3)]; [left; now apply ST|]. right.
        exists (p :: before), q, (map snd add ++ new), tl, e. split; [exact E1|]. split; [exact E2|]. split; [reflexivity|]. split; [now apply ST|]. rewrite <- app_assoc. now apply ST.
      + apply (IH i d l o d' o' res R E).
      + injection E as <- <- <-. exists [], [], [], []. destruct (NONE d l o R). split; [reflexivity|]. split; [assumption|]. split; [assumption|]. split; [reflexivity|]. left. constructor.
      + injection E as <- <- <-. exists [], [], [], []. destruct (NONE d l o R). split; [reflexivity|]. split; [assumption|]. split; [assumption|]. split; [discriminate|]. left. constructor.
  Qed.

  (** When the command succeeds the store has grown by exactly the packets of the stream that were
      not there, in their order; each is written to the outputs of --new, the others to those of --old. *)
  Theorem C91_saved : forall new old stdout vs d l d' o, represents d l -> save_exec f now private new old stdout vs d = (d', o, Ok tt) ->
    exists l', represents d' (l ++ l') /\ saves private (outputs new stdout) (outputs old stdout) (hashes l) (received vs) (map snd l') (o_log o).
  Proof.
    intros new old stdout vs d l d' o R E. unfold save_exec in E. rewrite !outputs_eq.
    destruct (negb _); [discriminate|]. destruct (loop_saves _ _ _ _ _ _ _ _ _ _ R E) as (done & rest & l' & log & RV & R2 & LG & OK & SV).
    rewrite (OK eq_refl), app_nil_r in RV. cbn in LG. rewrite RV, LG. exists l'. split; [exact R2|].
    destruct SV as [SV|(? & ? & ? & ? & ? & <- & NE & _)]; [exact SV|congruence].
  Qed.
  (** When it fails, or is not done, the packets up to some point are saved and nothing else is,
      and those are written; the last of them is not if that is what failed. *)
  Theorem C91_stopped : forall new old stdout vs d l d' o res, represents d l -> save_exec f now private new old stdout vs d = (d', o, res) ->
    exists done rest l', received vs = done ++ rest /\ represents d' (l ++ l') /\
      (saves private (outputs new stdout) (outputs old stdout) (hashes l) done (map snd l') (o_log o) \/
       exists before p new' lost, done = before ++ [p] /\ saves private (outputs new stdout) (outputs old stdout) (hashes l) before new' (o_log o) /\
         saves private (outputs new stdout) (outputs old stdout) (hashes l) done (map snd l') (o_log o ++ lost)).
  Proof.
    intros new old stdout vs d l d' o res R E. unfold save_exec in E. rewrite !outputs_eq.
    destruct (negb _).
    - injection E as <- <- <-. exists [], (received vs), []. rewrite (app_nil_r l). split; [reflexivity|]. split; [exact R|]. left. constructor.
    - destruct (loop_saves _ _ _ _ _ _ _ _ _ _ R E) as (done & rest & l' & log & RV & R2 & LG & _ & SV). cbn in LG. subst log. exists done, rest, l'. split; [exact RV|]. split; [exact R2|].
      destruct SV as [SV|(before & p & new' & tl & e & _ & _ & A & B & C)]; [now left|right]. exists before, p, new', tl. auto.
  Qed.
  (** Without the database among the destinations of --new nothing happens. *)
  Theorem C91_no_db : forall new old stdout vs d, ~ In DDb new -> save_exec f now private new old stdout vs d = (d, mkOut [] [], Err SNoDb).
  Proof.
    intros new old stdout vs d NI. unfold save_exec. replace (existsb is_db (if stdout then new ++ [DOut 0] else new)) with false; [reflexivity|]. symmetry.
    apply Bool.not_true_iff_false. rewrite existsb_exists. intros (x & I & X). destruct x; try discriminate.
    destruct stdout; [apply in_app_iff in I as [I|[I|[]]]; [now apply NI|discriminate]|now apply NI].
  Qed.
End C91.

Definition ex_clock (i : nat) : N := 1000 + N.of_nat i.
(** A linkpoint, a datapoint, the linkpoint again; the datapoint is stored already. *)
Definition ex_saved : db := fst (fst (save no_faults 5 empty_db [(ex_a, Pending)])).
Lemma ex_saved_ok : represents ex_saved [(5, ex_a)].
Proof.
  destruct (save no_faults 5 empty_db [(ex_a, Pending)]) as [[d ps] [[a b]|e| |]] eqn:E; try (vm_compute in E; discriminate).
  pose proof (C25_save_consistent _ _ _ _ _ _ _ _ _ empty_represents E) as [R _]. unfold ex_saved. rewrite E. cbn [fst].
  assert (a = 5) as -> by (vm_compute in E; injection E as _ _ <- _; reflexivity). exact R.
Qed.
Example C91_saved_ex :
  let '(d, o, res) := save_exec (fun _ => no_faults) ex_clock None [DDb; DOut 1] [DOut 2] true [VPkt ex_b; VPkt ex_a; VPkt ex_b; VEnd] ex_saved in
  res = Ok tt /\ o_log o = [(DOut 1, ex_b); (DOut 0, ex_b); (DOut 2, ex_a); (DOut 0, ex_a); (DOut 2, ex_b); (DOut 0, ex_b)] /\ map fst (log_t d) = [5; 1000].
Proof. vm_compute. split; [reflexivity|split; reflexivity]. Qed.
Print Assumptions C91_saved.
(** The second write to the store fails: the first packet stays. *)
Example C91_stopped_ex :
  let '(d, o, res) := save_exec (fun i => match i with 1%nat => mkFaults (fun _ => false) (fun _ => false) (fun _ => false) true | _ => no_faults end) ex_clock None [DDb; DOut 1] [] false
    [VPkt ex_b; VPkt ex_c; VEnd] ex_saved in
  res = Err (SStore EIo) /\ o_log o = [(DOut 1, ex_b)] /\ map fst (log_t d) = [5; 1000].
Proof. vm_compute. split; [reflexivity|split; reflexivity]. Qed.
Print Assumptions C91_stopped.
Example C91_no_db_ex : ~ In DDb [DOut 1].
Proof. intros [H|[]]; discriminate. Qed.
Print Assumptions C91_no_db.

(** With a clock that goes on between any two packets, and valid packets, nothing fails. *)
Definition clock_goes_on (now : nat -> N) (l : list (N * NetPktParts)) : Prop :=
  forall i, (forall e, In e l -> fst e < now i) /\ now i < now (S i).
Lemma save_from f now d ps d' ps' a b : save f now d ps = (d', ps', Ok (a, b)) -> a = save_start now (log_t d).
Proof.
  unfold save. destruct (hash_pass _ _ _ _ _) as [ps1 [[h' at1]|e| |]]; try discriminate.
  destruct (_ =? 0); [congruence|]. destruct (log_pass _ _ _ _ _); try discriminate. destruct (tree_pass _ _ _ _ _) as [ps2 [[t' at2]|e| |]]; try discriminate.
  destruct (f_commit f); [discriminate|congruence].
Qed.
Lemma log_last_in lg s : log_last lg = Some s -> In s (map fst lg).
Proof. induction lg as [|[x b] [|y lg] IH]; [discriminate|intros H; injection H as <-; now left|]. intros H. right. now apply IH. Qed.
Theorem C91_succeeds_partial : forall hash now private new old stdout vs d l, represents d l -> clock_goes_on now l ->
  Forall (fun p => items_valid hash [(p, Pending)]) (received vs) -> In VEnd vs -> ~ In VBad vs -> In DDb new -> ~ In DBuffer (new ++ old) -> private <> Some false ->
  exists d' o, save_exec (fun _ => no_faults) now private new old stdout vs d = (d', o, Ok tt).
Proof.
  intros hash now private new old stdout vs d l R CL V IE NV ID NB PR. unfold save_exec.
  replace (existsb is_db (if stdout then new ++ [DOut 0] else new)) with true.
  2: { symmetry. apply existsb_exists. exists DDb. split; [|reflexivity]. destruct stdout; [apply in_app_iff; now left|exact ID]. }
  cbn [negb]. rewrite <- !outputs_eq.
  assert (NB' : forall ds, (forall x, In x ds -> In x (new ++ old)) -> ~ In DBuffer (outputs ds stdout)).
  { intros ds I H. unfold outputs in H. apply in_app_iff in H as [H|H]; [apply filter_In in H as [H _]; apply NB; now apply I|]. destruct stdout; [destruct H as [H|[]]; discriminate|exact H]. }
  assert (NBn : ~ In DBuffer (outputs new stdout)) by (apply NB'; intros x I; apply in_app_iff; now left).
  assert (NBo : ~ In DBuffer (outputs old stdout)) by (apply NB'; intros x I; apply in_app_iff; now right).
  set (news := outputs new stdout) in *. set (olds := outputs old stdout) in *. clearbody news olds.
  assert (G : forall vs i d l o, represents d l -> (forall e, In e l -> fst e < now i) -> Forall (fun p => items_valid hash [(p, Pending)]) (received vs) -> In VEnd vs -> ~ In VBad vs ->
    exists d' o', save_loop (fun _ => no_faults) now private news olds i vs d o = (d', o', Ok tt)).
  { assert (MONO : forall i, now i < now (S i)) by apply CL. clear - MONO PR NBn NBo. induction vs as [|v vs IH]; intros i d l o R LT V IE NV; [destruct IE|].
    assert (NV' : ~ In VBad vs) by (intros H; apply NV; now right).
    destruct v as [p|b| |]; cbn [save_loop received] in *.
    - assert (IE' : In VEnd vs) by (destruct IE as [IE|IE]; [discriminate|assumption]). inversion V as [|? ? V1 V2]; subst.
      assert (NL : log_last (log_t d) <> Some (now i)).
      { intros H. apply log_last_in in H. destruct R as (_ & _ & R3 & _). rewrite R3, map_map in H. apply in_map_iff in H as (e & E1 & E2). cbn in E1. apply LT in E2. lia. }
      destruct (save_total hash (now i) d l [(p, Pending)] R V1 NL) as (d1 & ps1 & [a b] & S1).
      pose proof (save_from _ _ _ _ _ _ _ _ S1) as A. destruct (save_ok _ _ _ _ _ _ _ _ _ R S1) as (P1 & _ & _ & R1 & _).
      assert (SA : save_start (now i) (log_t d) = now i).
      { unfold save_start. destruct (log_last (log_t d)) as [s|] eqn:LL; [|reflexivity]. apply log_last_in in LL. destruct R as (_ & _ & R3 & _). rewrite R3, map_map in LL.
        apply in_map_iff in LL as (e & E1 & E2). cbn in E1. apply LT in E2. destruct (N.ltb_spec (now i) s); [lia|reflexivity]. }
      rewrite SA in A. subst a.
      assert (exists st, save_one no_faults (now i) d p = (d1, Ok st)) as [st SO].
      { unfold save_one. rewrite S1. cbn [obind]. rewrite P1. cbn [expected]. destruct (existsb _ _); cbn; eauto. }
      rewrite SO. destruct (PropsLinks.writes private PR (if is_written st then news else olds) p o) as [o1 W]; [now destruct (is_written st)|]. rewrite W.
      apply (IH (S i) d1 _ o1 R1); try assumption. intros e I. apply in_app_iff in I as [I|I].
      + apply LT in I. specialize (MONO i). lia.
      + cbn [expected] in I. destruct (existsb _ _); cbn in I; [destruct I|]. destruct I as [<-|[]]. apply MONO.
    - assert (IE' : In VEnd vs) by (destruct IE as [IE|IE]; [discriminate|assumption]). now apply (IH i d l).
    - eauto.
    - destruct NV. now left. }
  apply (G vs 0%nat d l); try assumption. apply CL.
Qed.
Example C91_succeeds_ex : clock_goes_on ex_clock [(5, ex_a)] /\
  snd (save_exec (fun _ => no_faults) ex_clock None [DDb] [] false [VPkt ex_b; VPkt ex_c; VEnd] ex_saved) = Ok tt.
Proof. split; [|vm_compute; reflexivity]. intros i. unfold ex_clock. split; [intros e [<-|[]]; cbn; lia|lia]. Qed.
Print Assumptions C91_succeeds_partial.

(** Two packets saved at the same reading of the clock: the command fails at the second. *)
Theorem C91_same_time_refuted :
  let '(d, o, res) := save_exec (fun _ => no_faults) (fun _ => 1000) None [DDb] [] false [VPkt ex_b; VPkt ex_c; VEnd] empty_db in
  res = Err (SStore EKeyExist) /\ map fst (log_t d) = [1000].
Proof. vm_compute. split; reflexivity. Qed.
Print Assumptions C91_same_time_refuted.
