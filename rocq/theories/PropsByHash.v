(** C96: getting packets by their hashes. *)
From Coq Require Import Lia Sorting.Sorted.
From Verif Require Import Bytes ModelPkt SpecPkt ModelTestSet SpecTestSet ProofTestSet ModelStore SpecStore ProofStore PropsPkt PropsStore ModelPred SpecPred ProofPred ProofPred2 PropsPred.
From Verif Require Import ModelQuery SpecQuery ProofQuery ProofQuery2 ProofQuery3 ProofQuery4 ExStore PropsQuery ModelWatch SpecWatch ProofWatch ProofWatch7 PropsWatch ModelQText ModelCliQuery ModelByHash SpecByHash.

Lemma has_hash_iff hash d l e h : valid_store hash d l -> In e l -> (has_hash hash h e <-> np_hash (snd e) = h).
Proof.
  intros VS IN. split.
  - intros (nh & p & (_ & (_ & _ & ->) & _) & E). exact E.
  - intros E. destruct (store_packet hash d l VS e IN) as (nh & p & PA). exists nh, p. split; [exact PA|]. destruct PA as (_ & (_ & _ & H) & _). congruence.
Qed.
Lemma by_hash_found hash d l hs : valid_store hash d l -> found hash l hs (get_pkts_by_hash d hs).
Proof.
  intros VS. pose proof VS as (R & _). induction hs as [|h hs IH]; [constructor|]. cbn [get_pkts_by_hash].
  destruct (read d h) as [[s b]|] eqn:E.
  - apply (read_iff d l h s b R) in E as (p & IN & H & ->). change (s, np_bytes p) with (answer (s, p)). apply found_one; [exact IN| |exact IH]. now apply (has_hash_iff hash d l (s, p)).
  - apply found_skip; [|exact IH]. intros [s p] IN HH. apply (has_hash_iff hash d l _ h VS IN) in HH. cbn [snd] in HH.
    assert (read d h = Some (s, np_bytes p)) as Y by (apply (read_iff d l h s _ R); exists p; auto). congruence.
Qed.
Lemma by_hash_len d hs : lenN (get_pkts_by_hash d hs) <= lenN hs.
Proof. induction hs as [|h hs IH]; [apply N.le_refl|]. cbn [get_pkts_by_hash]. destruct (read d h); rewrite !lenN_cons; lia. Qed.

Lemma loop_visits {C} (cb : C -> N * bytes -> C * bool) ps : forall n c, n + lenN ps < 2 ^ 31 ->
  exists l c' b, visits cb c ps l c' b /\ hashes_loop ps n c cb = (l, c', if b then (- Z.of_N (n + lenN l))%Z else Z.of_N (n + lenN l)).
Proof.
  induction ps as [|p ps IH]; intros n c LT.
  - exists [], c, false. split; [constructor|]. cbn [hashes_loop]. change (lenN (@nil (N * bytes))) with 0 in *. rewrite N.add_0_r in *. unfold saturating_cast. rewrite N.min_l by lia. reflexivity.
  - rewrite lenN_cons in LT. cbn [hashes_loop]. rewrite (N.mod_small (n + 1)) by (change (2 ^ 32) with (2 * 2 ^ 31); lia). destruct (cb c p) as [c1 b1] eqn:E. destruct b1.
    + exists [p], c1, true. split; [now constructor|]. unfold saturating_neg_cast. destruct (N.ltb_spec (2 ^ 31) (n + 1)); [lia|]. reflexivity.
    + destruct (IH (n + 1) c1 ltac:(lia)) as (l & c' & b & V & ->). exists (p :: l), c', b. split; [now apply visits_next with c1|]. rewrite lenN_cons. replace (n + 1 + lenN l) with (n + (1 + lenN l)) by lia. reflexivity.
Qed.

(** The callback is called with the stored packets that have the hashes asked for, in that order,
    until it breaks; the result is the number of calls, negated if it broke. *)
Theorem C96_get_hashes {A C} hash (s : rt A) l hs (c : C) cb : valid_store hash (r_snap s) l -> lenN hs < 2 ^ 31 ->
  exists xs called c' b, found hash l hs xs /\ visits cb c xs called c' b /\
    lk_get_hashes s hs c cb = (called, c', if b then (- Z.of_N (lenN called))%Z else Z.of_N (lenN called)).
Proof.
  intros VS LT. pose proof (by_hash_len (r_snap s) hs) as LE. destruct (loop_visits cb (get_pkts_by_hash (r_snap s) hs) 0 c ltac:(lia)) as (called & c' & b & V & E).
  exists (get_pkts_by_hash (r_snap s) hs), called, c', b. split; [now apply by_hash_found|]. split; [exact V|]. exact E.
Qed.
Print Assumptions C96_get_hashes.

(** ** lk_hash_query *)
Definition hash_pred (h : bytes) : Predicate := mkPred (RField PktHashF) Equal (PNum (be_decode h)).
Lemma eq_has_any w v : v < 2 ^ w -> has_any w (add w (set_default w) Equal v) = true.
Proof.
  intros LT. unfold has_any, min_value, mask_in_set, overflowing_in_set.
  change (mask (add w (set_default w) Equal v)) with (mkMask 0 (umax w)). change (low (bound (add w (set_default w) Equal v))) with (N.max 0 v).
  change (high (bound (add w (set_default w) Equal v))) with (N.min (umax w) v). rewrite N.max_r by apply N.le_0_l.
  assert (wrong_bits w (mkMask 0 (umax w)) v = 0) as ->.
  { unfold wrong_bits. cbn [ones zeros]. rewrite N.land_0_l, N.lor_0_r. unfold unot, umax, N.lnot. rewrite N.lxor_nilpotent. apply N.land_0_l. }
  rewrite N.eqb_refl. unfold umax. rewrite N.min_r by (rewrite N.ones_equiv; lia). now rewrite N.ltb_irrefl.
Qed.
Lemma no_tests p : (forall f, In f compiled_fields -> f = PktHashF \/ into_tests p f = []) -> p_prefix p = [] -> filter not_hash (compile_predicates p) = [].
Proof.
  intros H E. unfold compile_predicates. rewrite E, app_nil_r. revert H. induction compiled_fields as [|f fs IH]; intros H; [reflexivity|].
  cbn [flat_map]. rewrite filter_app, IH, app_nil_r by (intros g G; apply H; now right). destruct (H f (or_introl eq_refl)) as [-> | ->]; [|reflexivity].
  unfold into_tests. destruct (compile_stest (field_width PktHashF) (p_sets p PktHashF)); reflexivity.
Qed.
Ltac each_field := intros f IN; repeat (destruct IN as [<-|IN]; [first [left; reflexivity|right; vm_compute; reflexivity]|]); destruct IN.
Lemma eq_bound h : be_decode h < 2 ^ 256 -> bound (p_sets (q_preds (hash_eq h)) PktHashF) = mkBound (be_decode h) (be_decode h).
Proof.
  intros U. change (mkBound (N.max 0 (be_decode h)) (N.min (umax 256) (be_decode h)) = mkBound (be_decode h) (be_decode h)). unfold umax. rewrite N.max_r by apply N.le_0_l. rewrite N.min_r by (rewrite N.ones_equiv; lia). reflexivity.
Qed.
Section OneHash.
Variable hash : bytes -> bytes.
Hypothesis HL : hash32 hash.
Variable d : db.
Variable l : list stored.
Hypothesis VS : valid_store hash d l.
Variable h : bytes.
Hypothesis B : bytes_ok h.
Hypothesis L : lenN h = 32.
Lemma decode_small : be_decode h < 2 ^ 256.
Proof. pose proof (be_decode_bound h B) as U. now rewrite L in U. Qed.
Lemma entry_ok x : In x (hash_t d) -> lenN (fst x) = 32 /\ bytes_ok (fst x) /\ snd x < 2 ^ 64.
Proof.
  intros IN. apply (hash_owner hash d l VS) in IN as (e & IN & E1 & E2). destruct (store_packet hash d l VS e IN) as (nh & p & PA). destruct (hash_value hash HL e nh p PA) as (X & Y & _).
  rewrite <- E2, <- E1. split; [exact X|]. split; [exact Y|]. apply PA.
Qed.
Lemma decode_eq x : In x (hash_t d) -> be_decode (fst x) = be_decode h -> fst x = h.
Proof.
  intros IN E. destruct (entry_ok x IN) as (L1 & B1 & _). rewrite <- (be_encode_decode h B), <- (be_encode_decode _ B1), E. unfold lenN in *. f_equal. lia.
Qed.
Lemma entries_one : exists xs, query_hash_entries d (p_sets (q_preds (hash_eq h)) PktHashF) (p_recv (q_preds (hash_eq h))) true = Ok (map snd xs) /\
  (forall x, In x xs <-> In x (hash_t d) /\ fst x = h) /\ (List.length xs <= 1)%nat.
Proof.
  pose proof decode_small as U. pose proof VS as ((_ & _ & _ & R4 & _) & _). unfold query_hash_entries. rewrite (eq_bound h U). cbn [low high].
  set (from := filter _ (hash_t d)). set (f := fun e : bytes * N => be_decode (fst e) <=? be_decode h).
  assert (FI : forall x, In x from <-> In x (hash_t d) /\ be_decode h <= be_decode (fst x)).
  { intros x. unfold from. rewrite filter_In. split; intros [A C]; (split; [exact A|]); destruct (entry_ok x A) as (L1 & B1 & _); pose proof (key_le_num hash HL _ (fst x) U L1 B1) as KL; [rewrite KL in C|rewrite KL]; now apply N.leb_le. }
  assert (FS : StronglySorted (fun a b => hash_cmp a b = Lt) from) by now apply sorted_filter.
  assert (UP : forall a b, In a from -> In b from -> hash_cmp a b = Lt -> be_decode (fst a) < be_decode (fst b)).
  { intros a b IA IB LT. apply FI in IA as [IA _], IB as [IB _]. destruct (entry_ok a IA) as (LA & BA & _). destruct (entry_ok b IB) as (LB & BB & _).
    unfold hash_cmp in LT. pose proof (be_decode_bound _ BA) as UA. pose proof (be_decode_bound _ BB) as UB. rewrite LA in UA. rewrite LB in UB.
    rewrite <- (be_encode_decode _ BA), <- (be_encode_decode _ BB) in LT. assert (List.length (fst a) = 32%nat) as EA by (unfold lenN in LA; lia). assert (List.length (fst b) = 32%nat) as EB by (unfold lenN in LB; lia).
    rewrite EA, EB, (be_compare 32 _ _ 256 eq_refl UA UB) in LT. exact LT. }
  rewrite (take_while_filter (fun a b => hash_cmp a b = Lt) f from FS).
  2: { intros a b IA IB LT FA. specialize (UP a b IA IB LT). unfold f in *. rewrite N.leb_gt in *. lia. }
  eexists. split; [reflexivity|].
  assert (I : forall x, In x (filter (fun e => bound_test (p_recv (q_preds (hash_eq h))) (snd e) && mask_test (mask (p_sets (q_preds (hash_eq h)) PktHashF)) (be_decode (fst e))) (filter f from)) <-> In x (hash_t d) /\ fst x = h).
  { intros x. rewrite !filter_In, FI. unfold f. rewrite N.leb_le. split.
    - intros (((IN & A) & C) & _). split; [exact IN|]. apply decode_eq; [exact IN|lia].
    - intros (IN & E). rewrite E. split; [split; [split; [exact IN|lia]|lia]|]. destruct (entry_ok x IN) as (_ & _ & SB). apply andb_true_intro. split.
      + change (p_recv (q_preds (hash_eq h))) with (bound_default 64). unfold bound_test. change (high (bound_default 64)) with (2 ^ 64 - 1). change (low (bound_default 64)) with 0. apply andb_true_intro. split; apply N.leb_le; lia.
      + pose proof (member_default 256 (be_decode h) U) as M. unfold member in M. apply andb_prop in M as [_ M]. exact M. }
  split; [exact I|]. pose proof (sorted_filter _ (fun e => bound_test (p_recv (q_preds (hash_eq h))) (snd e) && mask_test (mask (p_sets (q_preds (hash_eq h)) PktHashF)) (be_decode (fst e))) _ (sorted_filter _ f _ FS)) as SS.
  destruct (filter _ (filter f from)) as [|a [|b r]] eqn:E; [cbn; lia|cbn; lia|]. exfalso.
  assert (IA : In a (a :: b :: r)) by now left. assert (IB : In b (a :: b :: r)) by (right; now left). apply I in IA as [_ EA], IB as [_ EB].
  inversion SS as [|? ? _ F]; subst. apply Forall_inv in F. unfold hash_cmp in F. rewrite EB, lex_refl in F. discriminate.
Qed.
Lemma query_one : (exists e, In e l /\ np_hash (snd e) = h /\ forall fuel stale, query fuel d THash true (q_preds (hash_eq h)) stale 0 = Ok [answer e]) \/
  ((forall e, In e l -> np_hash (snd e) <> h) /\ forall fuel stale, query fuel d THash true (q_preds (hash_eq h)) stale 0 = Ok []).
Proof.
  destruct entries_one as (xs & Q & I & LE).
  assert (NT : filter not_hash (compile_predicates (q_preds (hash_eq h))) = []) by (apply no_tests; [each_field|reflexivity]).
  destruct xs as [|x [|y r]]; [right|left|cbn in LE; lia].
  - split.
    + intros e IN E. assert (In (h, fst e) (hash_t d)) as IX by (apply (hash_owner hash d l VS); exists e; split; [exact IN|split; [reflexivity|exact E]]).
      assert (In (h, fst e) []) as [] by (apply I; split; [exact IX|reflexivity]).
    + intros fuel stale. unfold query, query_all, query_hash. rewrite Q. cbn [map omap obind filter]. reflexivity.
  - destruct (proj1 (I x) (or_introl eq_refl)) as [IN E]. apply (hash_owner hash d l VS) in IN as (e & IN & E1 & E2). exists e. split; [exact IN|]. split; [congruence|].
    intros fuel stale. unfold query, query_all, query_hash. rewrite Q. cbn [map omap obind]. rewrite <- E1, (read_stored hash d l VS e IN). cbn [obind]. rewrite NT. destruct (store_packet hash d l VS e IN) as (nh & p & PA). assert (pkt_test [] (answer e) = true) as PT. { unfold pkt_test. unfold answer. cbn [snd]. rewrite (view_packet hash _ nh p HL (proj1 PA)). reflexivity. }
    cbn [filter]. rewrite PT. reflexivity.
Qed.
End OneHash.

(** lk_get of a hash query gives the stored packet with the hash, nothing if there is none. *)
Theorem C96_hash_query {A} hash (s : rt A) l h qfuel stale : hash32 hash -> valid_store hash (r_snap s) l -> bytes_ok h -> lenN h = 32 ->
  get_mode (hash_eq h) = Ok (THash, true) /\
  ((exists e, In e l /\ has_hash hash h e /\ lk_get qfuel stale s THash true (q_preds (hash_eq h)) = Ok (Some (answer e))) \/
   ((forall e, In e l -> ~ has_hash hash h e) /\ lk_get qfuel stale s THash true (q_preds (hash_eq h)) = Ok None)).
Proof.
  intros HL VS B L. split; [vm_compute; reflexivity|]. destruct (query_one hash HL (r_snap s) l VS h B L) as [(e & IN & E & Q)|[NO Q]].
  - left. exists e. split; [exact IN|]. split; [now apply (has_hash_iff hash (r_snap s) l)|]. unfold lk_get. now rewrite Q.
  - right. split; [|unfold lk_get; now rewrite Q]. intros e IN HH. apply (has_hash_iff hash (r_snap s) l e h VS IN) in HH. now apply (NO e IN).
Qed.
Print Assumptions C96_hash_query.

(** ** The callbacks of Python *)
Lemma py_visits {C X} (cb : C -> N * bytes -> C * PyRet X) xs : forall c o l c' e b, visits (py_cb cb) (c, o) xs l (c', e) b ->
  exists vs, py_calls cb c xs l vs c' /\ e = match last_ret vs with Some (Raise x) => Some x | Some _ => None | None => o end.
Proof.
  induction xs as [|x xs IH]; intros c o l c' e b V; inversion V as [? A1 A2 A3 A4|? ? ? ? EQ|? ? ? [c1 e1] ? ? ? EQ V2]; subst.
  - exists []. split; [constructor|reflexivity].
  - unfold py_cb in EQ. cbn [fst] in EQ. destruct (cb c x) as [c1 v] eqn:E. destruct v as [y|[b'|]]; cbn [call_cont_py] in EQ; try discriminate. injection EQ as -> <- ->.
    exists [Ret (Some true)]. split; [now constructor|reflexivity].
  - unfold py_cb in EQ. cbn [fst] in EQ. destruct (cb c x) as [c2 v] eqn:E. destruct (IH _ _ _ _ _ _ V2) as (vs & PC & LE).
    assert (v <> Ret (Some true)) as NB by (intros ->; discriminate EQ).
    assert (c2 = c1 /\ e1 = match v with Raise y => Some y | _ => None end) as [-> O].
    { destruct v as [y|[b'|]]; cbn [call_cont_py] in EQ; injection EQ; intros; subst; auto. }
    exists (v :: vs). split; [now apply calls_next with c1|]. rewrite LE. unfold last_ret. cbn [rev]. destruct (rev vs) as [|w ws]; cbn [app]; [|reflexivity]. rewrite O. now destruct v.
Qed.
Lemma end_raised {X} (vs : list (PyRet X)) z : raised (py_end (match last_ret vs with Some (Raise x) => Some x | Some _ => None | None => None end) z) vs.
Proof. intros x. destruct (last_ret vs) as [[y|b]|]; cbn [py_end]; split; intros H; try discriminate H; injection H as ->; reflexivity. Qed.
(** In Python the packets are the same ones, and the call raises exactly what the last call of the
    function raised; otherwise it gives a number as in Rust. *)
Theorem C96_py_partial {A C X} hash (s : rt A) l hs (c : C) (cb : C -> N * bytes -> C * PyRet X) : valid_store hash (r_snap s) l -> lenN hs < 2 ^ 31 ->
  exists xs called vs c' o, found hash l hs xs /\ py_calls cb c xs called vs c' /\ py_get_hashes s hs c cb = (called, c', o) /\ raised o vs /\
    forall z, o = Ok z -> Z.abs z = Z.of_N (lenN called) /\ (last_ret vs = Some (Ret (Some true)) <-> (z < 0)%Z).
Proof.
  intros VS LT. destruct (C96_get_hashes hash s l hs (c, None) (py_cb cb) VS LT) as (xs & called & [c' e] & b & F & V & E).
  destruct (py_visits cb xs c None called c' e b V) as (vs & PC & LE). exists xs, called, vs, c'. unfold py_get_hashes. rewrite E.
  eexists. split; [exact F|]. split; [exact PC|]. split; [reflexivity|]. split; [rewrite LE; apply end_raised|].
  intros z Z. assert (z = if b then (- Z.of_N (lenN called))%Z else Z.of_N (lenN called)) as -> by (destruct e; cbn [py_end] in Z; [discriminate|injection Z; auto]). clear Z.
  assert (BB : (b = true -> last_ret vs = Some (Ret (Some true)) /\ called <> []) /\ (b = false -> last_ret vs <> Some (Ret (Some true)))).
  { clear - V PC. revert V. generalize (@None X). induction PC as [c|c x xs c' E|c x xs c' v l vs c2 E NB PC IH]; intros o V; inversion V as [? A1 A2 A3 A4|? ? ? ? EQ|? ? ? [c3 e3] ? ? ? EQ V2]; subst.
    - split; [discriminate|intros _; discriminate].
    - split; [intros _; split; [reflexivity|discriminate]|discriminate].
    - unfold py_cb in EQ. cbn [fst] in EQ. rewrite E in EQ. discriminate EQ.
    - exfalso. unfold py_cb in EQ. cbn [fst] in EQ. rewrite E in EQ. destruct v as [y|[[]|]]; cbn [call_cont_py] in EQ; try discriminate EQ. now apply NB.
    - unfold py_cb in EQ. cbn [fst] in EQ. rewrite E in EQ. assert (c3 = c') as -> by (destruct v as [y|[[]|]]; cbn [call_cont_py] in EQ; injection EQ; auto; discriminate).
      destruct (IH _ V2) as [I1 I2]. unfold last_ret in *. cbn [rev]. split.
      + intros ->. destruct (I1 eq_refl) as [J1 J2]. split; [|discriminate]. destruct (rev vs); [discriminate|exact J1].
      + intros ->. specialize (I2 eq_refl). destruct (rev vs) as [|w ws]; cbn [app]; [|exact I2]. intros H. injection H as ->. now apply NB. }
  destruct BB as [B1 B2]. destruct b.
  - destruct (B1 eq_refl) as [J1 J2]. assert (0 < lenN called) by (destruct called; [congruence|rewrite lenN_cons; lia]). split; [lia|]. split; [intros _; lia|auto].
  - split; [lia|]. split; [intros H; now apply B2 in H|lia].
Qed.
Print Assumptions C96_py_partial.
Lemma get_visits {C} (cb : C -> N * bytes -> C * bool) lim rs : forall at_ c, let '(l, c', n, b) := get_loop lim rs at_ c cb in
  visits cb c (zip_members 32 lim at_ rs) l c' b.
Proof.
  induction rs as [|r rs IH]; intros at_ c; cbn [get_loop zip_members]; [constructor|]. destruct (member_next 32 lim at_) as [[[]|] nt]; [|apply IH|constructor].
  destruct (cb c r) as [c1 b1] eqn:E. destruct b1; [now constructor|]. specialize (IH nt c1). destruct (get_loop lim rs nt c1 cb) as [[[l c2] n] b2]. now apply visits_next with c1.
Qed.
(** The same of lk_get_all in Python, over the results [xs] of the query. *)
Theorem C96_py_all_partial {C X} qfuel stale (s : rt (C * option X)) tb asc P (c : C) (cb : C -> N * bytes -> C * PyRet X) xs : query qfuel (r_snap s) tb asc P stale 0 = Ok xs ->
  exists called vs c' o, py_calls cb c xs called vs c' /\ py_get_all qfuel stale s tb asc P c cb = Ok (called, c', o) /\ raised o vs.
Proof.
  intros Q. apply query_parts in Q as (hist & Q & E). unfold py_get_all, lk_get_all. rewrite Q. cbn [obind]. pose proof (get_visits (py_cb cb) (p_limits P QQuery) hist 0 (c, None)) as V.
  destruct (get_loop (p_limits P QQuery) hist 0 (c, None) (py_cb cb)) as [[[l [c' e]] n] b]. destruct (py_visits cb _ c None l c' e b V) as (vs & PC & LE).
  exists l, vs, c'. eexists. split; [rewrite E; exact PC|]. split; [reflexivity|]. rewrite LE. apply end_raised.
Qed.
Print Assumptions C96_py_all_partial.

(** ** Examples *)
Definition ex_hashes : list bytes := map (fun e => np_hash (snd e)) ex_list.
Definition wanted : list bytes := [nth 2 ex_hashes []; repeat 7 32; nth 0 ex_hashes []; nth 2 ex_hashes []].
Definition ex_inst : rt N := new_rt ex_db 0 0.
Definition two (i j : nat) : list (N * bytes) := map answer (firstn 1 (skipn i ex_list) ++ firstn 1 (skipn j ex_list)).
Example C96_ex : valid_store toy_hash (r_snap ex_inst) ex_list /\ lenN wanted < 2 ^ 31 /\
  lk_get_hashes ex_inst wanted 0 (fun c _ => (c + 1, false)) = (two 2 0 ++ firstn 1 (two 2 0), 3, 3%Z) /\
  lk_get_hashes ex_inst wanted 0 (fun c _ => (c + 1, c =? 1)) = (two 2 0, 2, (-2)%Z) /\
  bytes_ok (nth 2 ex_hashes []) /\ lenN (nth 2 ex_hashes []) = 32 /\
  lk_get 100 None ex_inst THash true (q_preds (hash_eq (nth 2 ex_hashes []))) = Ok (hd_error (two 2 0)) /\
  lk_get 100 None ex_inst THash true (q_preds (hash_eq (repeat 7 32))) = Ok None.
Proof.
  split; [apply ex_honest|]. split; [reflexivity|]. split; [vm_compute; reflexivity|]. split; [vm_compute; reflexivity|].
  split; [apply bytes_okb; vm_compute; reflexivity|]. split; [vm_compute; reflexivity|]. split; vm_compute; reflexivity.
Qed.
(** The function raises at its first call and then not: the enumeration goes on, and nothing is
    raised. *)
Definition raises_first (c : N) (r : N * bytes) : N * PyRet N := (c + 1, if c =? 0 then Raise 42 else Ret None).
Theorem C96_exception_refuted : exists (s : rt N) l hs xs vs c', valid_store toy_hash (r_snap s) l /\
  py_calls raises_first 0 xs xs vs c' /\ In (Raise 42) vs /\ found toy_hash l hs xs /\ lenN xs = 2 /\ py_get_hashes s hs 0 raises_first = (xs, c', Ok 2%Z).
Proof.
  exists ex_inst, ex_list, [nth 2 ex_hashes []; nth 0 ex_hashes []], (get_pkts_by_hash ex_db [nth 2 ex_hashes []; nth 0 ex_hashes []]), [Raise 42; Ret None], 2.
  split; [apply ex_honest|]. assert (exists a b, get_pkts_by_hash ex_db [nth 2 ex_hashes []; nth 0 ex_hashes []] = [a; b] /\ py_get_hashes ex_inst [nth 2 ex_hashes []; nth 0 ex_hashes []] 0 raises_first = ([a; b], 2, Ok 2%Z)) as (a & b & E & G) by (do 2 eexists; split; vm_compute; reflexivity).
  split; [|split; [now left|split; [apply by_hash_found, ex_honest|rewrite E; split; [reflexivity|exact G]]]].
  rewrite E. eapply calls_next; [reflexivity|discriminate|]. eapply calls_next; [reflexivity|discriminate|]. constructor.
Qed.
Print Assumptions C96_exception_refuted.
(** A watch of Python with an [on_close] panics when it ends, whatever the function. *)
Theorem C96_on_close_refuted {C X} (f : C -> C * PyRet X) c : py_stopped (Some f) c = Panic /\ py_stopped (@None (C -> C * PyRet X)) c = Ok c.
Proof. split; reflexivity. Qed.
Print Assumptions C96_on_close_refuted.
(** A watch of Python breaks exactly if the function gives True, or raises and there is no [on_err] that
    gives True for it. *)
Theorem C96_py_watch {C X} (f : C -> N * bytes -> C * PyRet X) (g : option (C -> X -> N * bytes -> C * PyRet X)) c r :
  snd (py_handle (Some f) g c r) = true <->
  snd (f c r) = Ret (Some true) \/
  exists x, snd (f c r) = Raise x /\ forall h, g = Some h -> snd (h (fst (f c r)) x r) <> Ret (Some true).
Proof.
  unfold py_handle. destruct (f c r) as [c1 v]. cbn [fst snd]. destruct v as [x|[[]|]]; cbn [call_cont_py snd].
  - destruct g as [h|].
    + destruct (h c1 x r) as [c2 w] eqn:E. cbn [snd]. split.
      * intros B. right. exists x. split; [reflexivity|]. intros h' Y. injection Y as <-. rewrite E. cbn [snd]. intros ->. discriminate B.
      * intros [B|(y & Y & B)]; [discriminate B|]. injection Y as <-. specialize (B h eq_refl). rewrite E in B. cbn [snd] in B. destruct w as [z|[[]|]]; cbn [call_cont_py]; try reflexivity. now contradiction B.
    + split; [|reflexivity]. intros _. right. exists x. split; [reflexivity|discriminate].
  - split; [now left|reflexivity].
  - split; [discriminate|]. intros [B|(y & Y & _)]; discriminate.
  - split; [discriminate|]. intros [B|(y & Y & _)]; discriminate.
Qed.
Example C96_py_watch_ex : snd (py_handle (Some raises_first) None 0 (1, [])) = true /\ snd (py_handle (Some raises_first) (Some (fun c x _ => (c, Ret (Some (x =? 42))))) 0 (1, [])) = false /\
  snd (py_handle (Some raises_first) None 1 (1, [])) = false.
Proof. repeat split. Qed.
Print Assumptions C96_py_watch.
