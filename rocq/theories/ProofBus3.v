(** The shared-memory bus; the file of ports; messages. *)
From Verif Require Import Bytes ModelBus SpecBus ProofBus.
From Coq Require Import Lia.

(** ** Shared memory *)
Definition iemits (v : N) (t : ipc) : Prop := match t with IStart w | INotify w | IDone w _ => w = v end.
Definition iok (x0 : N) (s : isys) : Prop :=
  x0 <= i_val s /\ (i_val s = x0 \/ icalled s (i_val s)) /\
  (forall t, In t (i_threads s) -> match t with IStart _ => True | INotify v => v <= i_val s | IDone v r => v <= i_val s /\ r = v end).
Lemma in_upd {A} j (x y : A) l t : nth_error l j = Some y -> In t (upd j x l) -> t = x \/ In t l.
Proof.
  intros H I. apply In_nth_error in I. destruct I as (k & I). rewrite (nth_upd _ _ _ _ _ H) in I.
  destruct (Nat.eqb k j); [left; congruence|right; eapply nth_error_In; eauto].
Qed.
Lemma icalled_upd a j x y l v : nth_error l j = Some y -> (forall w, iemits w y -> iemits w x) ->
  icalled (mkISys a l) v -> forall b, icalled (mkISys b (upd j x l)) v.
Proof.
  intros H E (t & I & T) b. cbn in I. apply In_nth_error in I. destruct I as (k & I).
  destruct (Nat.eq_dec k j) as [->|NE].
  - exists x. split; [|apply (E v); assert (t = y) by congruence; subst; exact T]. apply (nth_error_In _ j). cbn. rewrite (nth_upd _ _ _ _ _ H), Nat.eqb_refl. reflexivity.
  - exists t. split; [|exact T]. apply (nth_error_In _ k). cbn. rewrite (nth_upd _ _ _ _ _ H). destruct (Nat.eqb_spec k j); [contradiction|exact I].
Qed.
Lemma istep_ok x0 s s' : iok x0 s -> istep s s' -> iok x0 s' /\ i_val s <= i_val s'.
Proof.
  intros (L & V & T) H. destruct H as [s v|s j v Hj E|s j v Hj E|s j v Hj]; cbn [i_val i_threads] in *.
  - split; [|lia]. split; [exact L|]. split.
    + destruct V as [V|(t & I & W)]; [auto|]. right. exists t. cbn. split; [apply in_or_app; auto|exact W].
    + intros t I. apply in_app_or in I. destruct I as [I|[<-|[]]]; [exact (T t I)|exact Logic.I].
  - split; [|lia]. subst v. rewrite N.max_id. split; [exact L|]. split.
    + destruct V as [V|V]; [auto|]. right. eapply (icalled_upd (i_val s)); [exact Hj| |destruct s; exact V]. cbn. auto.
    + intros t I. destruct (in_upd _ _ _ _ _ Hj I) as [->|I']; [split; [cbn; lia|reflexivity]|exact (T t I')].
  - split; [|cbn; lia]. split; [cbn; lia|]. split.
    + cbn [i_val]. destruct (N.max_spec (i_val s) v) as [[_ ->]|[_ ->]].
      * right. exists (INotify v). split; [|reflexivity]. apply (nth_error_In _ j). cbn. rewrite (nth_upd _ _ _ _ _ Hj), Nat.eqb_refl. reflexivity.
      * destruct V as [V|V]; [auto|]. right. eapply (icalled_upd (i_val s)); [exact Hj| |destruct s; exact V]. cbn. auto.
    + intros t I. destruct (in_upd _ _ _ _ _ Hj I) as [->|I']; [cbn; lia|]. specialize (T t I'). destruct t; cbn in *; auto; lia.
  - split; [|lia]. split; [exact L|]. split.
    + destruct V as [V|V]; [auto|]. right. eapply (icalled_upd (i_val s)); [exact Hj| |destruct s; exact V]. cbn. auto.
    + intros t I. destruct (in_upd _ _ _ _ _ Hj I) as [->|I']; [|exact (T t I')]. split; [|reflexivity]. exact (T _ (nth_error_In _ _ Hj)).
Qed.
Lemma iexec_ok x0 s s' : iexec s s' -> iok x0 s -> iok x0 s' /\ i_val s <= i_val s'.
Proof.
  induction 1 as [|s1 s2 s3 H IH HS]; intros K; [split; [exact K|lia]|].
  destruct (IH K) as [K2 L]. destruct (istep_ok _ _ _ K2 HS). split; [auto|lia].
Qed.
Lemma istart_ok x0 : iok x0 (mkISys x0 []).
Proof. split; [cbn; lia|]. split; [left; reflexivity|intros t []]. Qed.

(** ** Numbers in native order *)
Lemma le_length k n : lenN (le k n) = N.of_nat k.
Proof. unfold le, lenN. rewrite rev_length, be_encode_length. reflexivity. Qed.
Lemma le_num_le k n : n < 256 ^ N.of_nat k -> le_num (le k n) = n.
Proof. intros H. unfold le_num, le. rewrite rev_involutive. apply be_decode_encode. exact H. Qed.
Lemma takeN_app_exact {a b : bytes} {n} : lenN a = n -> takeN n (a ++ b) = a.
Proof.
  intros H. unfold takeN, lenN in *. replace (N.to_nat n) with (length a + 0)%nat by lia.
  rewrite firstn_app_2, firstn_O. apply app_nil_r.
Qed.
Lemma dropN_app_exact {a b : bytes} {n} : lenN a = n -> dropN n (a ++ b) = b.
Proof.
  intros H. unfold dropN, lenN in *. replace (N.to_nat n) with (length a) by lia.
  rewrite skipn_app, skipn_all, Nat.sub_diag. reflexivity.
Qed.

(** ** The file of ports *)
Definition entry (e : N * N) : bytes := le 8 (fst e) ++ le 2 (snd e).
Definition entry_ok (e : N * N) : Prop := fst e < 2 ^ 64 /\ snd e < 2 ^ 16.
Lemma entry_len e : lenN (entry e) = 10.
Proof. unfold entry. rewrite lenN_app, !le_length. reflexivity. Qed.
Lemma chunks_file l : forall fuel, (length l <= fuel)%nat -> chunks10 fuel (port_file l) = map entry l.
Proof.
  induction l as [|e l IH]; intros fuel F; cbn [port_file map concat].
  - destruct fuel; reflexivity.
  - destruct fuel as [|fuel]; [cbn in F; lia|]. cbn [chunks10].
    change (le 8 (fst e) ++ le 2 (snd e)) with (entry e). change (concat (map _ l)) with (port_file l).
    rewrite lenN_app, entry_len. destruct (N.ltb_spec (10 + lenN (port_file l)) 10); [lia|].
    rewrite (takeN_app_exact (entry_len e)), (dropN_app_exact (entry_len e)), IH by (cbn in F; lia). reflexivity.
Qed.
Lemma file_len l : lenN (port_file l) = 10 * lenN l.
Proof.
  induction l as [|e l IH]; [reflexivity|]. cbn [port_file map concat]. change (concat (map _ l)) with (port_file l).
  rewrite lenN_app, IH, lenN_cons. change (le 8 (fst e) ++ le 2 (snd e)) with (entry e). rewrite entry_len. lia.
Qed.
Fixpoint top (l : list (N * N)) (m : N) : N := match l with [] => m | e :: r => top r (N.max m (snd e)) end.
Lemma find_entries bus l : Forall entry_ok l -> forall m,
  find_port bus (map entry l) m = match find (fun e => fst e =? bus) l with Some e => (snd e, true) | None => (top l m, false) end.
Proof.
  induction 1 as [|e l [E1 E2] F IH]; intros m; [reflexivity|]. cbn [map find_port find top].
  assert (X1 : le_num (takeN 8 (entry e)) = fst e) by (unfold entry; rewrite (takeN_app_exact (le_length 8 _)); apply le_num_le; exact E1).
  assert (X2 : le_num (dropN 8 (entry e)) = snd e) by (unfold entry; rewrite (dropN_app_exact (le_length 8 _)); apply le_num_le; exact E2).
  rewrite X1, X2. destruct (fst e =? bus); [reflexivity|]. apply IH.
Qed.
Lemma port_file_app a b : port_file (a ++ b) = port_file a ++ port_file b.
Proof. unfold port_file. rewrite map_app, concat_app. reflexivity. Qed.
Lemma get_port_file bus l : Forall entry_ok l ->
  get_port bus (port_file l) = match find (fun e => fst e =? bus) l with
    | Some e => (snd e, port_file l)
    | None => let p := N.min (top l 10501 + 1) 65535 in (p, port_file (l ++ [(bus, p)]))
    end.
Proof.
  intros F. unfold get_port. rewrite chunks_file, find_entries by (auto; pose proof (file_len l); unfold lenN in *; lia).
  destruct (find _ l) as [e|]; [reflexivity|]. cbv zeta. rewrite port_file_app. unfold port_file at 3. cbn [map concat fst snd]. rewrite app_nil_r. reflexivity.
Qed.
Lemma top_ge l : forall m, m <= top l m.
Proof. induction l as [|e l IH]; intros m; cbn; [lia|]. specialize (IH (N.max m (snd e))). lia. Qed.
Lemma top_in l : forall m e, In e l -> snd e <= top l m.
Proof.
  induction l as [|x l IH]; intros m e I; [destruct I|]. cbn. destruct I as [->|I]; [|apply IH; exact I].
  pose proof (top_ge l (N.max m (snd e))). lia.
Qed.
Lemma top_app a b m : top (a ++ b) m = top b (top a m).
Proof. revert m. induction a; intros m; cbn; auto. Qed.
Lemma entry_ok_new bus p : bus < 2 ^ 64 -> p <= 65535 -> entry_ok (bus, p).
Proof. intros. split; cbn [fst snd]; [assumption|]. change (2 ^ 16) with 65536. lia. Qed.
Lemma find_none (l : list (N * N)) bus : ~ In bus (map fst l) -> find (fun e => fst e =? bus) l = None.
Proof.
  intros H. destruct (find _ l) as [e|] eqn:E; [|reflexivity]. apply find_some in E. destruct E as [I E]. apply N.eqb_eq in E. subst bus.
  exfalso. apply H. apply in_map. exact I.
Qed.
Lemma find_app_some {A} (f : A -> bool) a b e : find f a = Some e -> find f (a ++ b) = Some e.
Proof. induction a; cbn; [discriminate|]. destruct (f a); auto. Qed.
Lemma find_app_none {A} (f : A -> bool) a b : find f a = None -> find f (a ++ b) = find f b.
Proof. induction a; cbn; auto. destruct (f a); [discriminate|auto]. Qed.

(** Asking for new buses in turn. *)
Fixpoint ports (k : nat) (m : N) : list N :=
  match k with O => [] | S k => let p := N.min (m + 1) 65535 in p :: ports k (N.max m p) end.
Lemma ask_new bs : forall l, Forall entry_ok l -> NoDup bs -> Forall (fun b => b < 2 ^ 64) bs -> (forall b, In b bs -> ~ In b (map fst l)) ->
  ask bs (port_file l) = (ports (length bs) (top l 10501), port_file (l ++ combine bs (ports (length bs) (top l 10501)))).
Proof.
  induction bs as [|b bs IH]; intros l F ND B D; cbn [ask length ports combine].
  - rewrite app_nil_r. reflexivity.
  - rewrite get_port_file by exact F. rewrite find_none by (apply D; left; reflexivity). cbv zeta.
    set (p := N.min (top l 10501 + 1) 65535). inversion ND as [|? ? N1 N2]; subst. inversion B as [|? ? B1 B2]; subst.
    rewrite IH; [| |exact N2|exact B2|].
    + rewrite top_app. cbn [top snd]. rewrite <- app_assoc. reflexivity.
    + apply Forall_app. split; [exact F|]. constructor; [|constructor]. apply entry_ok_new; [exact B1|unfold p; lia].
    + intros x Ix C. rewrite map_app in C. apply in_app_or in C. destruct C as [C|[C|[]]]; [apply (D x); [right; exact Ix|exact C]|]. cbn in C. congruence.
Qed.
Lemma ports_nth k : forall m i, (i < k)%nat -> m <= 65535 -> nth_error (ports k m) i = Some (N.min (m + 1 + N.of_nat i) 65535).
Proof.
  induction k as [|k IH]; intros m i Hi L; [lia|]. cbn [ports]. destruct i as [|i].
  - cbn [nth_error]. f_equal. lia.
  - cbn [nth_error]. rewrite IH by lia. f_equal. lia.
Qed.
Lemma ports_length k : forall m, length (ports k m) = k.
Proof. induction k as [|k IH]; intros m; cbn; auto. Qed.

(** ** Messages *)
Lemma rx_tx bus pid pid' v : bus < 2 ^ 64 -> pid < 2 ^ 32 -> pid' < 2 ^ 32 -> v < 2 ^ 64 ->
  rx_parse bus pid' (tx_message bus pid v) = Ok (if pid =? pid' then None else Some v).
Proof.
  intros Hb Hp Hp' Hv. unfold rx_parse, tx_message.
  rewrite lenN_app, le_length. destruct (N.ltb_spec (N.of_nat 8 + lenN (le 4 pid ++ le 8 v)) 8); [lia|].
  rewrite (takeN_app_exact (le_length 8 _)), le_num_le by exact Hb. rewrite N.eqb_refl. cbn [negb].
  rewrite (dropN_app_exact (le_length 8 _)). rewrite lenN_app, le_length.
  destruct (N.ltb_spec (N.of_nat 4 + lenN (le 8 v)) 4); [lia|].
  rewrite (takeN_app_exact (le_length 4 _)), (dropN_app_exact (le_length 4 _)), le_length.
  destruct (N.eqb_spec pid pid') as [->|NE]; [rewrite beqb_refl; reflexivity|].
  destruct (beqb (le 4 pid) (le 4 pid')) eqn:E.
  - exfalso. apply NE. apply beqb_eq in E. apply (f_equal le_num) in E. rewrite !le_num_le in E; assumption.
  - change (N.of_nat 8 =? 8) with true. cbv iota. rewrite le_num_le by exact Hv. reflexivity.
Qed.
Lemma rx_other bus bus' pid pid' v : bus < 2 ^ 64 -> bus' <> bus -> rx_parse bus' pid' (tx_message bus pid v) = Ok None.
Proof.
  intros Hb NE. unfold rx_parse, tx_message.
  rewrite lenN_app, le_length. destruct (N.ltb_spec (N.of_nat 8 + lenN (le 4 pid ++ le 8 v)) 8); [lia|].
  rewrite (takeN_app_exact (le_length 8 _)), le_num_le by exact Hb. destruct (N.eqb_spec bus bus'); [congruence|reflexivity].
Qed.
Lemma le_of_num b k : bytes_ok b -> length b = k -> le k (le_num b) = b.
Proof.
  intros B L. unfold le, le_num. replace k with (length (rev b)) by now rewrite rev_length. rewrite be_encode_decode by (apply Forall_rev, B). apply rev_involutive.
Qed.
Lemma le_num_lt b k : bytes_ok b -> length b = k -> le_num b < 256 ^ N.of_nat k.
Proof. intros B <-. unfold le_num. rewrite <- (rev_length b). apply be_decode_bound, Forall_rev, B. Qed.
Lemma rx_only bus pid b v : bytes_ok b -> bus < 2 ^ 64 -> pid < 2 ^ 32 ->
  rx_parse bus pid b = Ok (Some v) <-> exists pid', pid' <> pid /\ pid' < 2 ^ 32 /\ v < 2 ^ 64 /\ b = tx_message bus pid' v.
Proof.
  intros B HB HP. split.
  - unfold rx_parse. destruct (N.ltb_spec (lenN b) 8) as [|L8]; [discriminate|]. destruct (N.eqb_spec (le_num (takeN 8 b)) bus) as [E1|]; [|discriminate]. cbn [negb].
    destruct (N.ltb_spec (lenN (dropN 8 b)) 4) as [|L4]; [discriminate|]. destruct (beqb (takeN 4 (dropN 8 b)) (le 4 pid)) eqn:E2; [discriminate|].
    destruct (N.eqb_spec (lenN (dropN 4 (dropN 8 b))) 8) as [LV|]; [|discriminate]. intros E. assert (EV : v = le_num (dropN 4 (dropN 8 b))) by congruence. clear E.
    set (x := takeN 8 b) in *. set (r := dropN 8 b) in *. set (y := takeN 4 r) in *. set (z := dropN 4 r) in *.
    assert (S1 : b = x ++ r) by (symmetry; apply firstn_skipn). assert (S2 : r = y ++ z) by (symmetry; apply firstn_skipn).
    assert (LX : length x = 8%nat) by (unfold x, takeN, lenN in *; rewrite firstn_length; lia). assert (LY : length y = 4%nat) by (unfold y, takeN, lenN in *; rewrite firstn_length; lia).
    assert (LZ : length z = 8%nat) by (unfold lenN in LV; lia).
    assert (bytes_ok x /\ bytes_ok y /\ bytes_ok z) as (BX & BY & BZ). { rewrite S1, S2 in B. apply bytes_ok_app in B as [B1 B]. apply bytes_ok_app in B as [B2 B3]. auto. }
    exists (le_num y). split; [|split; [|split]].
    + intros Q. rewrite <- Q, (le_of_num y 4 BY LY), beqb_refl in E2. discriminate.
    + exact (le_num_lt y 4 BY LY).
    + subst v. exact (le_num_lt z 8 BZ LZ).
    + unfold tx_message. rewrite <- E1, EV, !le_of_num by assumption. rewrite S1 at 1. now rewrite S2 at 1.
  - intros (pid' & NE & P & V & ->). rewrite rx_tx by assumption. destruct (N.eqb_spec pid' pid); [contradiction|reflexivity].
Qed.
