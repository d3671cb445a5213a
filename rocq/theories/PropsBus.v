(** C52: the bus.  C71: the ports of the buses. *)
From Verif Require Import Bytes ModelBus SpecBus ProofBus ProofBus2 ProofBus3.
From Coq Require Import Lia FinFun.

(** ** C52 *)
(** In every interleaving, with any losses, the value of a process never decreases. *)
Theorem C52_monotone : forall lossy pids s s' i x x', exec lossy (start pids) s -> exec lossy s s' ->
  value s i x -> value s' i x' -> x <= x'.
Proof.
  intros lossy pids s s' i x x' R H V V'. pose proof (exec_sok _ _ _ R (start_sok pids)) as S.
  destruct (exec_value _ _ _ _ _ H S V) as (y & (p & E & <-) & L). destruct V' as (p' & E' & <-).
  assert (p' = p) by congruence. now subst.
Qed.
Print Assumptions C52_monotone.
(** What [emit v] returns is at least [v] and at most the value of the process, from then on. *)
Theorem C52_emit : forall lossy pids s s' i j v sk r x, exec lossy (start pids) s -> exec lossy s s' ->
  at_pc s i j (EDone v sk r) -> value s' i x -> v <= r /\ r <= x.
Proof.
  intros lossy pids s s' i j v sk r x R H (p & E & Ej) V. pose proof (exec_sok _ _ _ R (start_sok pids)) as S.
  destruct (S _ _ E _ _ Ej) as [L1 L2].
  pose proof (C52_monotone _ _ _ _ _ _ _ R H (value_of _ _ _ E) V). lia.
Qed.
Print Assumptions C52_emit.
(** Also with losses: once its threads are done, a process has at least every value emitted in it, and
    it never has a value nobody emitted. *)
Theorem C52_bounds : forall lossy pids s i x, exec lossy (start pids) s -> value s i x ->
  (x = 0 \/ exists k, called_emit s k x) /\ (settled s i -> forall v, called_emit s i v -> v <= x).
Proof.
  intros lossy pids s i x R V. split; [exact (proj1 (exec_gok _ _ _ R (start_gok pids)) _ _ V)|].
  intros St v C. apply called_iff in C. destruct C as (j & t & A & Em).
  destruct A as (p & E & Ej). pose proof (exec_sok _ _ _ R (start_sok pids) _ _ E _ _ Ej) as Tk.
  pose proof (St j t (ex_intro _ p (conj E Ej))) as NB. destruct V as (q & Eq & <-). assert (q = p) by congruence. subst q.
  destruct t; cbn in *; try tauto. destruct Em as [-> _]. lia.
Qed.
Print Assumptions C52_bounds.
(** If nothing is lost, then once everything is delivered and done all processes have the largest value
    emitted anywhere. *)
Theorem C52_agree : forall pids s, NoDup pids -> exec false (start pids) s -> s_net s = [] -> (forall i, settled s i) ->
  forall k x, value s k x -> largest (fun v => exists i, called_emit s i v) x.
Proof. exact agree. Qed.
Print Assumptions C52_agree.
(** A thread that has registered and is not woken has missed nothing: the value is that of when it
    registered, unless some thread of its process is still about to notify it. *)
Theorem C52_registered : forall lossy pids s1 s2 s3 i j x, exec lossy (start pids) s1 -> step lossy s1 s2 -> exec lossy s2 s3 ->
  at_pc s1 i j WStart -> at_pc s2 i j (WWait false) -> at_pc s3 i j (WWait false) -> settled s3 i ->
  value s1 i x -> value s3 i x.
Proof.
  intros lossy pids s1 s2 s3 i j x R H HE A1 A2 A3 St V.
  assert (V2 : value s2 i x).
  { destruct V as (p & E & <-). destruct (step_move _ _ _ _ _ H E) as (p' & E' & M).
    exists p'. split; [exact E'|]. destruct A1 as (q & Eq & Ej). assert (q = p) by congruence. subst q.
    destruct A2 as (q & Eq' & Ej'). assert (q = p') by congruence. subst q.
    destruct M as [l n k t p' ms Hk T|t Ht|]; [|reflexivity|reflexivity].
    destruct T; try reflexivity. exfalso. cbn [with_thread with_val p_threads] in Ej'. rewrite (nth_upd _ _ _ _ _ Hk) in Ej'.
    destruct (Nat.eqb_spec j k) as [->|NE]; congruence. }
  eapply (exec_waiter lossy s2 s3); eauto. intros k v sk. split; intros B; apply (St _ _ B); exact Logic.I.
Qed.
Print Assumptions C52_registered.
(** What a woken thread returns is at least the value of its process when it was woken. *)
Theorem C52_woken : forall lossy pids s1 s2 i j x y, exec lossy (start pids) s1 -> exec lossy s1 s2 ->
  at_pc s1 i j WLoad -> value s1 i x -> at_pc s2 i j (WDone (Some y)) -> x <= y.
Proof.
  intros lossy pids s1 s2 i j x y R H A V B.
  enough (K : forall t, at_pc s2 i j t -> t = WLoad \/ exists z, t = WDone (Some z) /\ x <= z).
  { destruct (K _ B) as [K1|(z & K1 & L)]; congruence. }
  clear B y. induction H as [s|s1 s2 s3 H IH HS]; intros t B; [left; eapply at_pc_fun; eauto|].
  specialize (IH R A V).
  assert (P : exists u, at_pc s2 i j u).
  { destruct B as (p' & E' & Ej'). destruct (exec_value _ _ _ _ _ H (exec_sok _ _ _ R (start_sok pids)) V) as (w & (p & E & _) & _).
    assert (T : forall s, exec lossy s1 s -> exists u, at_pc s i j u).
    { clear - A. intros s Hs. induction Hs as [|a b c Hs IHs Hst]; [eauto|]. destruct (IHs A) as (u & Au). destruct (at_pc_step _ _ _ _ _ _ Hst Au) as (u' & Au' & _). eauto. }
    exact (T _ H). }
  destruct P as (u & Au). destruct (at_pc_step _ _ _ _ _ _ HS Au) as (t' & At' & Ev).
  assert (t' = t) by (eapply at_pc_fun; eauto). subst t'.
  destruct (IH u Au) as [-> |(z & -> & L)].
  - destruct t; cbn in Ev; try tauto. right. destruct ret as [z|]; [|destruct Ev]. exists z. split; [reflexivity|].
    destruct (exec_value _ _ _ _ _ H (exec_sok _ _ _ R (start_sok pids)) V) as (w & (p & E & Ew) & Lw).
    destruct Au as (q & Eq & Ej). assert (q = p) by congruence. subst q.
    destruct B as (p' & E' & Ej').
    destruct (step_move _ _ _ _ _ HS E) as (p1 & E1 & M). assert (p1 = p') by congruence. subst p1.
    destruct M as [l n k t p' ms Hk T|t Ht|].
    + destruct (Nat.eq_dec j k) as [->|NE].
      * assert (t = WLoad) by congruence. subst t. inversion T; subst. cbn [with_thread p_threads] in Ej'. rewrite (nth_upd _ _ _ _ _ Hk), Nat.eqb_refl in Ej'. injection Ej' as <-. exact Lw.
      * exfalso. assert (NB : Nat.eqb j k = false) by (apply Nat.eqb_neq; exact NE).
        destruct T; cbn [with_thread with_val notify_all p_threads] in Ej';
          (erewrite nth_upd in Ej' by (first [exact Hk | rewrite nth_error_map, Hk; reflexivity])); rewrite NB in Ej'; try congruence.
        rewrite nth_error_map, Ej in Ej'. discriminate.
    + exfalso. cbn in Ej'. rewrite (nth_snoc_old _ _ _ _ Ej) in Ej'. discriminate.
    + congruence.
  - destruct t; cbn in Ev; try tauto. subst ret. right. eauto.
Qed.
Print Assumptions C52_woken.

(** Reading the value and then waiting is not enough: an emit between the two is not noticed. The reader
    saw 0, the value is now 1, nobody has anything left to do, and the reader waits. *)
Lemma exec_cons lossy a b c : step lossy a b -> exec lossy b c -> exec lossy a c.
Proof. intros H. apply exec_trans. eapply exec_step; [apply exec_refl|exact H]. Qed.
Ltac thread i j := eapply exec_cons; [eapply (SThread false _ _ i _ j); [reflexivity|reflexivity|]|cbn].
Ltac emit i w := eapply exec_cons; [eapply (SEmit false _ _ i _ w); reflexivity|cbn].
Theorem C52_check_then_wait_refuted :
  exists s s', exec false (start [7]) s /\ value s 0 0 /\ (forall j t, at_pc s 0 j t -> False) /\
    exec false s s' /\ value s' 0 1 /\ settled s' 0 /\ s_net s' = [] /\ exists j, at_pc s' 0 j (WWait false).
Proof.
  exists (start [7]). eexists. split; [apply exec_refl|]. split; [eexists; split; reflexivity|].
  split; [intros j t (p & E & Ej); cbn in E; injection E as <-; destruct j; discriminate|].
  split.
  { emit 0%nat 1. thread 0%nat 0%nat; [apply TLoad|]. thread 0%nat 0%nat; [apply TCas; [discriminate|reflexivity]|].
    thread 0%nat 0%nat; [apply TSend|]. thread 0%nat 0%nat; [apply TNotify|].
    eapply exec_cons; [eapply (SOwn false _ [] _ [] _); reflexivity|cbn].
    eapply exec_cons; [eapply (SWait false _ _ 0); reflexivity|cbn].
    thread 0%nat 1%nat; [apply TListen|]. apply exec_refl. }
  split; [eexists; split; reflexivity|]. split.
  { intros j t (p & E & Ej). cbn in E. injection E as <-. destruct j as [|[|j]]; cbn in Ej; [injection Ej as <-; auto|injection Ej as <-; auto|destruct j; discriminate]. }
  split; [reflexivity|]. exists 1%nat. eexists. split; reflexivity.
Qed.
Print Assumptions C52_check_then_wait_refuted.
(** Two processes: 5 is emitted in one and 3 in the other while a thread of the second waits. *)
Example C52_ex : exists s, exec false (start [7; 8]) s /\ s_net s = [] /\ (forall i, settled s i) /\
  value s 0 5 /\ value s 1 5 /\ called_emit s 1 3 /\ at_pc s 1 0 (WWait true).
Proof.
  eexists. split.
  { eapply exec_cons; [eapply (SWait false _ _ 1); reflexivity|cbn]. thread 1%nat 0%nat; [apply TListen|].
    emit 0%nat 5. emit 1%nat 3.
    thread 0%nat 0%nat; [apply TLoad|]. thread 1%nat 1%nat; [apply TLoad|].
    thread 0%nat 0%nat; [apply TCas; [discriminate|reflexivity]|]. thread 0%nat 0%nat; [apply TSend|].
    thread 0%nat 0%nat; [apply TNotify|].
    eapply exec_cons; [eapply (SOwn false _ [] _ [_] _); reflexivity|cbn].
    eapply exec_cons; [eapply (SDeliver false _ [] _ [] _); [reflexivity|cbn; discriminate]|cbn].
    thread 1%nat 2%nat; [apply TLoad|]. thread 1%nat 2%nat; [apply TCas; [discriminate|reflexivity]|].
    thread 1%nat 1%nat; [apply TRetry; discriminate|]. thread 1%nat 1%nat; [apply TOld; reflexivity|].
    thread 1%nat 2%nat; [apply TSkip|]. thread 1%nat 2%nat; [apply TNotify|]. apply exec_refl. }
  split; [reflexivity|]. split.
  { intros i j t (p & E & Ej). cbn in E. destruct i as [|[|i]]; [| |destruct i; discriminate]; injection E as <-;
      (destruct j as [|[|[|j]]]; cbn in Ej; try discriminate; try (injection Ej as <-; auto); destruct j; discriminate). }
  split; [eexists; split; reflexivity|]. split; [eexists; split; reflexivity|].
  split; [exists 1%nat; eexists; split; [eexists; split; reflexivity|reflexivity]|eexists; split; reflexivity].
Qed.
(** With losses the processes need not agree. *)
Example C52_loss_ex : exists s, exec true (start [7; 8]) s /\ s_net s = [] /\ (forall i, settled s i) /\ value s 0 5 /\ value s 1 0.
Proof.
  eexists. split.
  { eapply exec_cons; [eapply (SEmit true _ _ 0 _ 5); reflexivity|cbn].
    eapply exec_cons; [eapply (SThread true _ _ 0 _ 0); [reflexivity|reflexivity|apply TLoad]|cbn].
    eapply exec_cons; [eapply (SThread true _ _ 0 _ 0); [reflexivity|reflexivity|apply TCas; [discriminate|reflexivity]]|cbn].
    eapply exec_cons; [eapply (SThread true _ _ 0 _ 0); [reflexivity|reflexivity|apply TSendErr; reflexivity]|cbn].
    eapply exec_cons; [eapply (SThread true _ _ 0 _ 0); [reflexivity|reflexivity|apply TNotify]|cbn]. apply exec_refl. }
  split; [reflexivity|]. split.
  { intros i j t (p & E & Ej). cbn in E. destruct i as [|[|i]]; [| |destruct i; discriminate]; injection E as <-;
      (destruct j as [|j]; cbn in Ej; try discriminate; try (injection Ej as <-; auto); destruct j; discriminate). }
  split; eexists; split; reflexivity.
Qed.

(** The messages: read back by the other processes, dropped by the sender and on other buses. *)
Theorem C52_message : forall bus pid pid' v, bus < 2 ^ 64 -> pid < 2 ^ 32 -> pid' < 2 ^ 32 -> v < 2 ^ 64 ->
  rx_parse bus pid' (tx_message bus pid v) = Ok (if pid =? pid' then None else Some v) /\
  forall bus', bus' <> bus -> rx_parse bus' pid' (tx_message bus pid v) = Ok None.
Proof. intros. split; [now apply rx_tx|]. intros. now apply rx_other. Qed.
Print Assumptions C52_message.
(** Nothing else is taken for a value. *)
Theorem C52_message_only : forall bus pid b v, bytes_ok b -> bus < 2 ^ 64 -> pid < 2 ^ 32 ->
  rx_parse bus pid b = Ok (Some v) <-> exists pid', pid' <> pid /\ pid' < 2 ^ 32 /\ v < 2 ^ 64 /\ b = tx_message bus pid' v.
Proof. exact rx_only. Qed.
Print Assumptions C52_message_only.
Example C52_message_ex : rx_parse 7 2 (tx_message 7 1 500) = Ok (Some 500) /\ rx_parse 7 2 (tx_message 7 1 500 ++ [0]) = Panic.
Proof. split; vm_compute; reflexivity. Qed.
(** F83: the receiving thread is killed by any shorter or longer datagram. *)
Theorem F83_datagram_panics : forall bus pid b, lenN b < 8 -> rx_parse bus pid b = Panic.
Proof. intros bus pid b H. unfold rx_parse. destruct (N.ltb_spec (lenN b) 8); [reflexivity|lia]. Qed.
Print Assumptions F83_datagram_panics.

(** The bus in shared memory: the same for its value. *)
Theorem C52_shared : forall x0 s s', iexec (mkISys x0 []) s -> iexec s s' ->
  i_val s <= i_val s' /\ x0 <= i_val s /\ (i_val s = x0 \/ icalled s (i_val s)) /\
  (isettled s -> forall v, icalled s v -> v <= i_val s).
Proof.
  intros x0 s s' R H. destruct (iexec_ok x0 _ _ R (istart_ok x0)) as [K _]. destruct (iexec_ok x0 _ _ H K) as [_ L].
  destruct K as (K1 & K2 & K3). split; [exact L|]. split; [exact K1|]. split; [exact K2|].
  intros St v (t & I & E). destruct (St t I) as (w & r & ->). cbn in E. subst w. exact (proj1 (K3 _ I)).
Qed.
Print Assumptions C52_shared.
Example C52_shared_ex : exists s, iexec (mkISys 4 []) s /\ isettled s /\ icalled s 9 /\ icalled s 2 /\ i_val s = 9.
Proof.
  eexists. split.
  { eapply iexec_step; [eapply iexec_step; [eapply iexec_step; [eapply iexec_step; [eapply iexec_step; [eapply iexec_step; [apply iexec_refl|]|]|]|]|]|].
    - apply (IEmit _ 9). - apply (IEmit _ 2).
    - apply (IMax _ 0 9); [reflexivity|discriminate]. - apply (IMax _ 1 2); [reflexivity|discriminate].
    - apply (INot _ 1 2). reflexivity. - apply (INot _ 0 9). reflexivity. }
  split; [|split; [|split; [|reflexivity]]]; cbn.
  - intros t [<-|[<-|[]]]; eauto.
  - eexists. split; [left; reflexivity|reflexivity].
  - eexists. split; [right; left; reflexivity|reflexivity].
Qed.
(** F84: there [emit] returns the emitted value although a larger one was already there, where the bus
    over datagrams returns the larger one (C52_emit gives both). *)
Theorem F84_emit_result : exists s v r, iexec (mkISys 9 []) s /\ isettled s /\ In (IDone v r) (i_threads s) /\ r < i_val s.
Proof.
  eexists. exists 2, 2. split.
  { eapply iexec_step; [eapply iexec_step; [eapply iexec_step; [apply iexec_refl|]|]|].
    - apply (IEmit _ 2). - apply (IMax _ 0 2); [reflexivity|discriminate]. - apply (INot _ 0 2). reflexivity. }
  cbn. split; [|split; [left; reflexivity|reflexivity]]. intros t [<-|[]]. eauto.
Qed.
Print Assumptions F84_emit_result.

(** ** C71 *)
Definition ports_ok (l : list (N * N)) : Prop := Forall (fun e => fst e < 2 ^ 64 /\ snd e < 2 ^ 16) l.
(** The port of a bus is found again, and asking for another bus does not change it. *)
Theorem C71_stable : forall l bus p f, ports_ok l -> bus < 2 ^ 64 -> get_port bus (port_file l) = (p, f) ->
  exists l', f = port_file l' /\ ports_ok l' /\ get_port bus f = (p, f) /\
    forall b q, get_port b (port_file l) = (q, port_file l) -> In b (map fst l) -> get_port b f = (q, f).
Proof.
  intros l bus p f F B G. rewrite get_port_file in G by exact F.
  destruct (find (fun e => fst e =? bus) l) as [e|] eqn:E.
  - injection G as <- <-. exists l. split; [reflexivity|]. split; [exact F|]. split; [rewrite get_port_file, E by exact F; reflexivity|]. auto.
  - cbv zeta in G. set (w := N.min (top l 10501 + 1) 65535) in G.
    assert (Hp : p = w) by (exact (f_equal fst (eq_sym G))). assert (Hf : f = port_file (l ++ [(bus, w)])) by (exact (f_equal snd (eq_sym G))).
    assert (F' : Forall entry_ok (l ++ [(bus, w)])).
    { apply Forall_app. split; [exact F|]. constructor; [|constructor]. apply entry_ok_new; [exact B|unfold w; lia]. }
    exists (l ++ [(bus, w)]). split; [exact Hf|]. split; [exact F'|]. rewrite Hf, Hp. split.
    + rewrite get_port_file by exact F'. rewrite (find_app_none _ _ _ E). cbn [find fst]. rewrite N.eqb_refl. reflexivity.
    + intros b q Gb Ib. rewrite get_port_file in Gb by exact F. rewrite get_port_file by exact F'.
      destruct (find (fun e => fst e =? b) l) as [e|] eqn:Eb.
      * rewrite (find_app_some _ _ _ _ Eb). assert (X : snd e = q) by (exact (f_equal fst Gb)). rewrite X. reflexivity.
      * exfalso. apply in_map_iff in Ib. destruct Ib as (e & <- & I). pose proof (List.find_none (fun x => fst x =? fst e) l Eb e I) as C. cbn in C. rewrite N.eqb_refl in C. discriminate.
Qed.
Print Assumptions C71_stable.
(** The first 55034 buses of a machine get ports of their own, above 10501. *)
Theorem C71_distinct : forall bs, NoDup bs -> Forall (fun b => b < 2 ^ 64) bs -> lenN bs <= 55034 ->
  NoDup (fst (ask bs [])) /\ length (fst (ask bs [])) = length bs /\ forall p, In p (fst (ask bs [])) -> 10501 < p /\ p < 2 ^ 16.
Proof.
  intros bs ND B L. change (@nil N) with (port_file []) . rewrite ask_new; [|constructor|exact ND|exact B|intros b _ []].
  cbn [top fst]. split; [|split; [apply ports_length|]].
  - apply NoDup_nth_error. intros i j Hi E. rewrite ports_length in Hi. rewrite ports_nth in E by lia.
    destruct (Nat.lt_ge_cases j (length bs)) as [Hj|Hj].
    + rewrite ports_nth in E by lia. unfold lenN in L. assert (X : N.min (10501 + 1 + N.of_nat i) 65535 = N.min (10501 + 1 + N.of_nat j) 65535) by congruence. lia.
    + exfalso. assert (C : nth_error (ports (length bs) 10501) j = None) by (apply nth_error_None; rewrite ports_length; exact Hj). congruence.
  - intros p I. apply In_nth_error in I. destruct I as (i & I). assert (Hi : (i < length bs)%nat).
    { rewrite <- (ports_length (length bs) 10501). apply nth_error_Some. congruence. }
    rewrite ports_nth in I by lia. injection I as <-. change (2 ^ 16) with 65536. lia.
Qed.
Print Assumptions C71_distinct.
Example C71_ex : ask [77; 5; 77; 2 ^ 63] [] = ([10502; 10503; 10502; 10504], port_file [(77, 10502); (5, 10503); (2 ^ 63, 10504)]).
Proof. vm_compute. reflexivity. Qed.
(** After that all new buses share the last port. *)
Lemma many_shared : forall bs, NoDup bs -> Forall (fun b => b < 2 ^ 64) bs ->
  forall i, (i < length bs)%nat -> 55033 <= N.of_nat i -> nth_error (fst (ask bs [])) i = Some 65535.
Proof.
  intros bs ND B i Hi Li. change (@nil N) with (port_file []). rewrite ask_new; [|constructor|exact ND|exact B|intros b _ []].
  cbn [top fst]. rewrite ports_nth by lia. f_equal. lia.
Qed.
Theorem C71_distinct_refuted : exists bs i j, NoDup bs /\ Forall (fun b => b < 2 ^ 64) bs /\ i <> j /\
  nth_error (fst (ask bs [])) i = Some 65535 /\ nth_error (fst (ask bs [])) j = Some 65535.
Proof.
  set (k := N.to_nat 55035). assert (K : N.of_nat k = 55035) by (unfold k; apply N2Nat.id). clearbody k.
  assert (ND : NoDup (map N.of_nat (seq 0 k))) by (apply FinFun.Injective_map_NoDup; [intros x y; apply Nat2N.inj|apply seq_NoDup]).
  assert (B : Forall (fun b => b < 2 ^ 64) (map N.of_nat (seq 0 k))).
  { apply Forall_forall. intros b I. apply in_map_iff in I. destruct I as (n & <- & I). apply in_seq in I. change (2 ^ 64) with 18446744073709551616. lia. }
  exists (map N.of_nat (seq 0 k)), (k - 2)%nat, (k - 1)%nat. split; [exact ND|]. split; [exact B|]. split; [lia|].
  split; apply many_shared; auto; rewrite ?map_length, ?seq_length; lia.
Qed.
Print Assumptions C71_distinct_refuted.
(** F85: after a write that was cut short two buses get one port, and a bus can get another port the
    next time: the processes that use it do not hear each other. *)
Theorem F85_torn_file : (exists f, f = port_file [(77, 10502)] ++ [1] /\
    fst (get_port 5 f) = 10503 /\ fst (get_port 6 (snd (get_port 5 f))) = 10503) /\
  exists f, f = port_file [(77, 10700)] ++ [1] /\ fst (get_port 5 f) <> fst (get_port 5 (snd (get_port 5 f))).
Proof. split; eexists; (split; [reflexivity|]); vm_compute; [auto|discriminate]. Qed.
Print Assumptions F85_torn_file.
