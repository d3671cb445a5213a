From Verif Require Import Bytes ModelAbe ModelEval ModelTestSet ModelPred SpecPred ProofPred ModelQText SpecQText ProofQText ModelNet SpecNet.

(** ** Lists *)
Lemma write_length off v h : (off + List.length v <= List.length h)%nat -> List.length (write_at off v h) = List.length h.
Proof. intros L. unfold write_at. rewrite !app_length, firstn_length, skipn_length. lia. Qed.
Lemma zip3_length f a : forall b c, List.length b = List.length a -> List.length c = List.length a -> List.length (zip3 f a b c) = List.length a.
Proof. induction a as [|x a IH]; intros [|y b] [|z c] Hb Hc; cbn in *; try lia. rewrite IH; lia. Qed.
Lemma zip3_firstn f n : forall a b c, zip3 f (firstn n a) (firstn n b) (firstn n c) = firstn n (zip3 f a b c).
Proof. induction n as [|n IH]; intros [|x a] [|y b] [|z c]; try reflexivity. cbn. now rewrite IH. Qed.
Lemma zip3_skipn f n : forall a b c, List.length b = List.length a -> List.length c = List.length a -> zip3 f (skipn n a) (skipn n b) (skipn n c) = skipn n (zip3 f a b c).
Proof.
  induction n as [|n IH]; intros a b c Hb Hc; [reflexivity|]. destruct a as [|x a], b as [|y b], c as [|z c]; cbn in *; try lia; try reflexivity. apply IH; lia.
Qed.
Lemma field_mutate i j m h : List.length (m_clear m) = List.length h -> List.length (m_set m) = List.length h ->
  field_bytes i j (mutate_header m h) = zip3 (fun x c s => N.lor (N.land x c) s) (field_bytes i j h) (field_bytes i j (m_clear m)) (field_bytes i j (m_set m)).
Proof. intros C S. unfold field_bytes, mutate_header. now rewrite zip3_firstn, zip3_skipn. Qed.
Lemma land_255 x : x < 256 -> N.land x 255 = x.
Proof. intros H. change 255 with (N.ones 8). rewrite N.land_ones. apply N.mod_small. exact H. Qed.
(** All bits are kept. *)
Lemma zip3_keep a : forall s, bytes_ok a -> zip3 (fun x c s => N.lor (N.land x c) s) a (repeat 255 (List.length a)) s = both a s.
Proof. induction a as [|x a IH]; intros [|y s] B; try reflexivity. apply Forall_cons_iff in B as [X B]. cbn. rewrite land_255 by exact X. now rewrite IH. Qed.
Lemma both_zero a : both a (repeat 0 (List.length a)) = a.
Proof. induction a as [|x a IH]; [reflexivity|]. cbn. now rewrite N.lor_0_r, IH. Qed.
(** ** Reading what was written *)
Lemma part_same off v h : (off + List.length v <= List.length h)%nat -> field_bytes off (off + List.length v) (write_at off v h) = v.
Proof.
  intros L. unfold field_bytes, write_at. replace (off + List.length v - off)%nat with (List.length v) by lia.
  rewrite skipn_app, skipn_all2 by (rewrite firstn_length; lia). rewrite firstn_length. replace (off - Nat.min off (List.length h))%nat with 0%nat by lia. cbn [app skipn].
  rewrite firstn_app, Nat.sub_diag, firstn_all. apply app_nil_r.
Qed.
Lemma nth_write off v h n : (off + List.length v <= List.length h)%nat -> ~ (off <= n < off + List.length v)%nat -> nth_error (write_at off v h) n = nth_error h n.
Proof.
  intros L O. unfold write_at. assert (n < off \/ off + List.length v <= n)%nat as [A|A] by lia.
  - rewrite nth_error_app1 by (rewrite firstn_length; lia). assert (H := firstn_skipn off h). rewrite <- H at 2. symmetry. apply nth_error_app1. rewrite firstn_length. lia.
  - rewrite nth_error_app2 by (rewrite firstn_length; lia). rewrite nth_error_app2 by (rewrite firstn_length; lia). rewrite firstn_length.
    assert (H := firstn_skipn (off + List.length v) h). rewrite <- H at 3. rewrite nth_error_app2 by (rewrite firstn_length; lia). rewrite firstn_length. f_equal. lia.
Qed.
Lemma nth_field i j h n : nth_error (field_bytes i j h) n = if Nat.ltb n (j - i) then nth_error h (i + n) else None.
Proof.
  unfold field_bytes. assert (S : forall k (l : bytes) m, nth_error (firstn k l) m = if Nat.ltb m k then nth_error l m else None).
  { induction k as [|k IH]; intros [|x l] [|m]; try reflexivity; [cbn [firstn nth_error]; now destruct (Nat.ltb (S m) (S k))|]. cbn [firstn nth_error]. apply IH. }
  rewrite S. assert (K : forall k (l : bytes) m, nth_error (skipn k l) m = nth_error l (k + m)).
  { induction k as [|k IH]; intros [|x l] m; try reflexivity; [now destruct m|]. apply IH. }
  now rewrite K.
Qed.
Lemma part_other off v h i j : (off + List.length v <= List.length h)%nat -> (j <= off \/ off + List.length v <= i)%nat -> field_bytes i j (write_at off v h) = field_bytes i j h.
Proof.
  intros L O. assert (E : forall a b : bytes, (forall n, nth_error a n = nth_error b n) -> a = b).
  { induction a as [|x a IH]; intros [|y b] H; [reflexivity|specialize (H 0%nat); discriminate..|]. f_equal; [specialize (H 0%nat); cbn in H; congruence|]. apply IH. intros n. exact (H (S n)). }
  apply E. intros n. rewrite !nth_field. destruct (Nat.ltb_spec n (j - i)); [|reflexivity]. apply nth_write; [exact L|]. lia.
Qed.
(** Two fields are the same or apart. *)
Lemma span_route f : mut_route f = match span f with Some (i, j) => Some (i, (j - i)%nat) | None => None end.
Proof. destruct f; reflexivity. Qed.
Lemma span_bounds f i j : span f = Some (i, j) -> (3 <= i < j)%nat /\ (j <= 32)%nat.
Proof. destruct f; intros E; try discriminate; injection E as <- <-; lia. Qed.
Lemma span_apart f g i j i' j' : span f = Some (i, j) -> span g = Some (i', j') -> f <> g -> (j <= i' \/ j' <= i)%nat.
Proof. destruct f; intros E; try discriminate; destruct g; intros E'; try discriminate; intros NE; try contradiction; injection E as <- <-; injection E' as <- <-; lia. Qed.
(** ** The rules *)
Lemma field_num f i j : span f = Some (i, j) -> num_kind f.
Proof. destruct f; try discriminate; intros _; exact I. Qed.
Lemma change_rule m c : change_ok c -> obind (ext_of_stmt (change_stmt c)) (fun e => obind (try_iter e) (add_rules m)) =
  match span (fst c) with Some (i, j) => Ok (mkMut (write_at i (repeat 255 (j - i)) (m_clear m)) (write_at i (snd c) (m_set m))) | None => Err QStmt end.
Proof.
  destruct c as [f v]. intros (_ & i & j & E & L). cbn [fst snd] in *. rewrite E. unfold change_stmt. cbn [fst snd]. unfold ext_of_stmt.
  assert (predicate_type (field_name f) = Some (RField f)) as -> by (destruct f; try discriminate; reflexivity). change (ext_op (str "=")) with (Some (Op Equal)). cbn [obind try_iter add_rules try_add_rule].
  rewrite span_route, E. cbn [mutate_rule as_exact_bytes]. now rewrite L, Nat.eqb_refl.
Qed.
Definition mut_ok (m : HeaderMut) (l : list change) : Prop :=
  m_clear m = repeat 255 32 /\ List.length (m_set m) = 32%nat /\ field_bytes 0 3 (m_set m) = [0; 0; 0] /\
  forall f i j, span f = Some (i, j) -> field_bytes i j (m_set m) = match last_value f l with Some v => v | None => repeat 0 (j - i) end.
Lemma last_snoc f l g v : last_value f (l ++ [(g, v)]) = if field_eqb g f then Some v else last_value f l.
Proof.
  induction l as [|[g' v'] l IH]; cbn; [reflexivity|]. rewrite IH. now destruct (field_eqb g f).
Qed.
Lemma firstn_repeat (x : N) i : forall n, firstn i (repeat x n) = repeat x (Nat.min i n).
Proof. induction i as [|i IH]; intros [|n]; try reflexivity. cbn. now rewrite IH. Qed.
Lemma skipn_repeat (x : N) i : forall n, skipn i (repeat x n) = repeat x (n - i).
Proof. induction i as [|i IH]; intros [|n]; try reflexivity. cbn. apply IH. Qed.
Lemma write_255 i k : (i + k <= 32)%nat -> write_at i (repeat 255 k) (repeat 255 32) = repeat 255 32.
Proof.
  intros L. unfold write_at. rewrite repeat_length, firstn_repeat, skipn_repeat, <- !repeat_app. f_equal. lia.
Qed.
Lemma default_ok : mut_ok mut_default [].
Proof. split; [reflexivity|]. split; [reflexivity|]. split; [reflexivity|]. intros f i j E. destruct f; try discriminate; injection E as <- <-; reflexivity. Qed.
Lemma change_step m l c i j : mut_ok m l -> change_ok c -> span (fst c) = Some (i, j) ->
  mut_ok (mkMut (write_at i (repeat 255 (j - i)) (m_clear m)) (write_at i (snd c) (m_set m))) (l ++ [c]).
Proof.
  intros (C & L & P & F) (_ & i0 & j0 & E0 & LV) E. rewrite E in E0. injection E0 as <- <-. destruct (span_bounds _ _ _ E) as [B1 B2]. destruct c as [f v]. cbn [fst snd] in *.
  split; [cbn [m_clear]; rewrite C; apply write_255; lia|]. cbn [m_set]. split; [rewrite write_length; lia|]. split; [rewrite part_other by lia; exact P|].
  intros g i' j' E'. rewrite last_snoc. destruct (field_eqb f g) eqn:Q.
  - apply field_eqb_eq in Q. subst g. rewrite E in E'. injection E' as <- <-. replace j with (i + List.length v)%nat by lia. apply part_same. lia.
  - assert (f <> g) as NE by (intros ->; now rewrite field_eqb_refl in Q). pose proof (span_apart _ _ _ _ _ _ E E' NE). rewrite part_other by lia. now apply F.
Qed.
Lemma changes_run l : forall m l0, mut_ok m l0 -> Forall change_ok l -> exists m', mut_from_lst m (map change_stmt l) = Ok m' /\ mut_ok m' (l0 ++ l).
Proof.
  induction l as [|c l IH]; intros m l0 M F; [exists m; split; [reflexivity|now rewrite app_nil_r]|]. apply Forall_cons_iff in F as [OK F].
  pose proof (change_rule m c OK) as R. pose proof OK as (_ & i & j & E & _). rewrite E in R. cbn [map mut_from_lst].
  destruct (ext_of_stmt (change_stmt c)) as [e| | |]; try discriminate. cbn [obind] in *. destruct (try_iter e) as [ts| | |]; try discriminate. cbn [obind] in *. rewrite R. cbn [obind].
  destruct (IH _ (l0 ++ [c]) (change_step m l0 c i j M OK E) F) as (m' & A & B). exists m'. split; [exact A|]. now rewrite <- app_assoc in B.
Qed.
Lemma field_ok i j h : bytes_ok h -> bytes_ok (field_bytes i j h).
Proof.
  intros B. apply Forall_forall. intros x X. unfold bytes_ok in B. rewrite Forall_forall in B. apply B. unfold field_bytes in X.
  rewrite <- (firstn_skipn i h). apply in_or_app. right. rewrite <- (firstn_skipn (j - i) (skipn i h)). apply in_or_app. now left.
Qed.
Lemma mutated m l h : mut_ok m l -> List.length h = 32%nat -> bytes_ok h ->
  List.length (mutate_header m h) = 32%nat /\ field_bytes 0 3 (mutate_header m h) = field_bytes 0 3 h /\
  forall f i j, span f = Some (i, j) -> field_bytes i j (mutate_header m h) = match last_value f l with Some v => both (field_bytes i j h) v | None => field_bytes i j h end.
Proof.
  intros (C & L & P & F) LH BH.
  assert (CL : List.length (m_clear m) = 32%nat) by (rewrite C; apply repeat_length).
  assert (K : forall i j, (i <= j)%nat -> (j <= 32)%nat -> field_bytes i j (mutate_header m h) = both (field_bytes i j h) (field_bytes i j (m_set m))).
  { intros i j LE H32. rewrite field_mutate by lia. assert (LF : List.length (field_bytes i j h) = (j - i)%nat) by (unfold field_bytes; rewrite firstn_length, skipn_length; lia).
    rewrite <- (zip3_keep (field_bytes i j h)); [|now apply field_ok]. f_equal. rewrite LF, C. unfold field_bytes at 1.
    rewrite skipn_repeat, firstn_repeat. f_equal. lia. }
  split; [unfold mutate_header; rewrite zip3_length; lia|]. split.
  - rewrite K, P by lia. replace [0; 0; 0] with (repeat 0 (List.length (field_bytes 0 3 h))); [apply both_zero|]. unfold field_bytes. rewrite firstn_length, skipn_length, LH. reflexivity.
  - intros f i j E. destruct (span_bounds _ _ _ E). rewrite K by lia. rewrite (F f i j E). destruct (last_value f l); [reflexivity|].
    replace (j - i)%nat with (List.length (field_bytes i j h)) by (unfold field_bytes; rewrite firstn_length, skipn_length; lia). apply both_zero.
Qed.
(** ** Duplicates *)
Lemma set_nth_length {A} (x : A) l : forall i, List.length (set_nth i x l) = List.length l.
Proof. induction l as [|y l IH]; intros [|i]; try reflexivity. cbn. now rewrite IH. Qed.
Lemma nth_set {A} (d x : A) l : forall i j, (i < List.length l)%nat -> nth j (set_nth i x l) d = if Nat.eqb i j then x else nth j l d.
Proof.
  induction l as [|y l IH]; intros i j L; [cbn in L; lia|]. destruct i as [|i], j as [|j]; try reflexivity. cbn [set_nth nth Nat.eqb]. apply IH. cbn in L. lia.
Qed.
Lemma slot_small n h : (0 < n)%nat -> (dedup_slot n h < n)%nat.
Proof. intros L. unfold dedup_slot. assert (be_decode (rev (firstn 8 h)) mod N.of_nat n < N.of_nat n) by (apply N.mod_lt; lia). lia. Qed.
Definition zero_hash : bytes := repeat 0 32.
Definition slots_ok (n : nat) (d : list bytes) (hs : list bytes) : Prop :=
  List.length d = n /\ forall h, nth (dedup_slot n h) d [] = match last_in_slot (dedup_slot n) h hs with Some x => x | None => zero_hash end.
Lemma last_in_snoc slot h hs x : last_in_slot slot h (hs ++ [x]) = if Nat.eqb (slot x) (slot h) then Some x else last_in_slot slot h hs.
Proof. induction hs as [|y hs IH]; cbn; [reflexivity|]. rewrite IH. now destruct (Nat.eqb (slot x) (slot h)). Qed.
Lemma slots_new n : (0 < n)%nat -> slots_ok n (dedup_new n) [].
Proof.
  intros L. split; [apply repeat_length|]. intros h. cbn [last_in_slot]. unfold dedup_new. pose proof (slot_small n h L) as S. set (k := dedup_slot n h) in *.
  clearbody k. rewrite (nth_indep _ [] zero_hash) by now rewrite repeat_length. apply nth_repeat.
Qed.
Lemma slots_step n d hs h : (0 < n)%nat -> slots_ok n d hs ->
  probable_contains d h = Ok (beqb (match last_in_slot (dedup_slot n) h hs with Some x => x | None => zero_hash end) h, set_nth (dedup_slot n h) h d) /\
  slots_ok n (set_nth (dedup_slot n h) h d) (hs ++ [h]).
Proof.
  intros L [D F]. split.
  - unfold probable_contains. destruct d as [|x d]; [cbn in D; lia|]. rewrite D. now rewrite (F h).
  - split; [now rewrite set_nth_length|]. intros k. rewrite last_in_snoc, nth_set by (rewrite D; now apply slot_small). destruct (Nat.eqb _ _); [reflexivity|apply F].
Qed.
Lemma dedup_outputs n hs : forall d pre, (0 < n)%nat -> slots_ok n d pre -> exists bs, dedup_run d hs = Ok bs /\ List.length bs = List.length hs /\
  forall before h after, hs = before ++ h :: after ->
    nth_error bs (List.length before) = Some (beqb (match last_in_slot (dedup_slot n) h (pre ++ before) with Some x => x | None => zero_hash end) h).
Proof.
  induction hs as [|x hs IH]; intros d pre L S.
  - exists []. split; [reflexivity|]. split; [reflexivity|]. intros [|] h after E; discriminate.
  - cbn [dedup_run]. destruct (slots_step n d pre x L S) as [-> S']. cbn [obind]. destruct (IH _ _ L S') as (bs & -> & LB & H). cbn [obind]. eexists. split; [reflexivity|]. split; [cbn; now rewrite LB|].
    intros [|y before] h after E; cbn [app] in E; injection E as <- E.
    + rewrite app_nil_r. reflexivity.
    + cbn [List.length nth_error]. rewrite (H before h after E). now rewrite <- app_assoc.
Qed.
Lemma last_in_slot_spec slot h hs : match last_in_slot slot h hs with
  | Some x => exists a b, hs = a ++ x :: b /\ slot x = slot h /\ Forall (fun y => slot y <> slot h) b
  | None => Forall (fun y => slot y <> slot h) hs
  end.
Proof.
  induction hs as [|y hs IH]; cbn; [constructor|]. destruct (last_in_slot slot h hs) as [x|].
  - destruct IH as (a & b & -> & E & F). exists (y :: a), b. auto.
  - destruct (Nat.eqb_spec (slot y) (slot h)); [|constructor; assumption]. exists [], hs. auto.
Qed.
(** ** Buffer *)
Section Buffer.
Context {A : Type} (hash_of : A -> bytes) (links_of : A -> option (list bytes)).
Notation push := (buf_push hash_of links_of).
Notation run := (buf_run hash_of links_of).
Fixpoint state (b : Buffer) (ps : list A) : Buffer := match ps with [] => b | p :: r => state (snd (push b p)) r end.
Lemma run_nth pre : forall b k rest, nth_error (run b (pre ++ k :: rest)) (List.length pre) = Some (fst (push (state b pre) k)).
Proof.
  induction pre as [|p pre IH]; intros b k rest; cbn [app buf_run List.length nth_error state].
  - now destruct (push b k).
  - destruct (push b p) as [o b'] eqn:E. cbn [nth_error snd]. apply IH.
Qed.
Lemma state_app a c : forall b, state b (a ++ c) = state (state b a) c.
Proof. induction a as [|x a IH]; intros b; [reflexivity|]. cbn. apply IH. Qed.
Lemma state_data d : forall b, Forall (is_data links_of) d ->
  state b d = mkBuf (forward_buf b ++ filter (fun x => negb (linked hash_of (latest_links b) x)) d) (latest_links b).
Proof.
  induction d as [|x d IH]; intros b F; [cbn; rewrite app_nil_r; now destruct b|]. apply Forall_cons_iff in F as [D F]. cbn [state filter]. unfold buf_push. rewrite D.
  destruct (linked hash_of (latest_links b) x); cbn [snd negb]; rewrite IH by exact F; [reflexivity|]. cbn [forward_buf latest_links]. now rewrite <- app_assoc.
Qed.
Lemma state_links b pre l : links_of l <> None -> exists ls, links_of l = Some ls /\ state b (pre ++ [l]) = mkBuf [] ls.
Proof. intros H. rewrite state_app. cbn [state]. unfold buf_push. destruct (links_of l) as [ls|]; [|contradiction]. exists ls. auto. Qed.
Lemma filter_filter' (f g : A -> bool) l : filter f (filter g l) = filter (fun x => f x && g x) l.
Proof. induction l as [|x l IH]; [reflexivity|]. cbn. destruct (g x); cbn; rewrite IH; destruct (f x); reflexivity. Qed.
Lemma after_last b last d k : Forall (is_data links_of) d ->
  b = mkBuf [] (match last with Some l => match links_of l with Some ls => ls | None => [] end | None => [] end) ->
  fst (push (state b d) k) = comes_out hash_of links_of last d k.
Proof.
  intros F ->. rewrite state_data by exact F. cbn [forward_buf latest_links app]. unfold buf_push, comes_out. cbn [forward_buf latest_links].
  assert (DN : forall x, linked hash_of (match last with Some l => match links_of l with Some ls => ls | None => [] end | None => [] end) x =
    match last with Some l => links_to hash_of links_of l x | None => false end).
  { intros x. unfold linked, links_to. destruct last as [l|]; [|reflexivity]. now destruct (links_of l). }
  destruct (links_of k) as [ls|] eqn:E.
  - cbn [fst]. f_equal. rewrite filter_filter'. apply filter_ext. intros x. rewrite DN. unfold links_to at 2. now rewrite E.
  - rewrite DN. match goal with |- fst (if ?x then _ else _) = _ => now destruct x end.
Qed.
End Buffer.
