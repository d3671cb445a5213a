From Coq Require Import Sorted.
From Verif Require Import Bytes ModelAbe ModelFmt SpecFmt ProofFmt ModelFn ProofFn ModelStamp SpecStamp ModelQuery.

Lemma units_formats : units = DELTA_FORMATS. Proof. vm_compute. reflexivity. Qed.
(** ** Parsing durations *)
Lemma u32_iff t n : parse_uint 4 t = Some n <-> numeral 10 t n /\ n < 2 ^ 32.
Proof. unfold parse_uint. rewrite parse_radix_iff by lia. change (umax_of 4) with (2 ^ 32 - 1). intuition lia. Qed.
Lemma number10_digit t n c : number 10 t n -> In c t -> 48 <= c <= 57.
Proof.
  intros (_ & ds & F & _). induction F as [|x d t ds H F IH]; [contradiction|]. intros [->|I]; [|auto].
  apply digit_of_iff in H; [|lia]. unfold digit_of in H.
  destruct ((48 <=? c) && (c <=? 57)) eqn:E1; [lia|]. destruct ((97 <=? c) && (c <=? 122)) eqn:E2; [destruct (c - 87 <? 10) eqn:L; [lia|discriminate]|].
  destruct ((65 <=? c) && (c <=? 90)) eqn:E3; [destruct (c - 55 <? 10) eqn:L; [lia|discriminate]|discriminate].
Qed.
Lemma numeral_chars t n c : numeral 10 t n -> In c t -> c = 43 \/ 48 <= c <= 57.
Proof. intros [H|(r & -> & H)] I; [right; eapply number10_digit; eassumption|]. destruct I as [<-|I]; [now left|right; eapply number10_digit; eassumption]. Qed.
Lemma ascii_utf8 t : (forall c, In c t -> c < 128) -> is_utf8 t = true.
Proof. induction t as [|c t IH]; intros H; cbn [is_utf8]; [reflexivity|]. assert (c <? 128 = true) as -> by (apply N.ltb_lt, H; now left). apply IH. intros x I. apply H. now right. Qed.
Lemma split_digits t : forall cur n u, (forall c, In c n -> is_alpha c = false) -> is_alpha u = true -> split_inclusive cur (n ++ u :: t) = (cur ++ n ++ [u]) :: split_inclusive [] t.
Proof.
  intros cur n. revert cur. induction n as [|c n IH]; intros cur u H U; cbn [app split_inclusive].
  - now rewrite U.
  - rewrite (H c) by now left. rewrite IH; [now rewrite <- app_assoc|intros x I; apply H; now right|assumption].
Qed.
Lemma split_cases t : forall cur, (forall c, In c cur -> is_alpha c = false) ->
  match split_inclusive cur t with
  | [] => cur = [] /\ t = []
  | s :: r => (exists n u t', cur ++ t = n ++ u :: t' /\ s = n ++ [u] /\ r = split_inclusive [] t' /\ (List.length t' < List.length t)%nat /\ is_alpha u = true) \/ (r = [] /\ s <> [] /\ forall c, In c s -> is_alpha c = false)
  end.
Proof.
  induction t as [|c t IH]; intros cur H; cbn [split_inclusive].
  - destruct cur; [now split|]. right. repeat split; [discriminate|exact H].
  - destruct (is_alpha c) eqn:A.
    + left. exists cur, c, t. repeat split; auto.
    + assert (H' : forall x, In x (cur ++ [c]) -> is_alpha x = false) by (intros x I; apply in_app_or in I as [I|[<-|[]]]; auto).
      specialize (IH (cur ++ [c]) H'). destruct (split_inclusive (cur ++ [c]) t).
      * destruct IH as [E _]. now destruct cur.
      * destruct IH as [(n & u & t' & E & -> & -> & L & U)|R]; [|now right].
        left. exists n, u, t'. rewrite <- app_assoc in E. cbn [app] in E. repeat split; auto. cbn [List.length]. lia.
Qed.
Lemma skip_to_iff u us v rest : NoDup (map fst us) -> skip_to u us = Some (v, rest) <-> exists pre, us = pre ++ (u, v) :: rest.
Proof.
  induction us as [|[c w] us IH]; cbn [skip_to map fst].
  - intros _. split; [discriminate|]. intros ([|] & H); discriminate.
  - intros ND. apply NoDup_cons_iff in ND as [NI ND]. destruct (N.eqb_spec c u) as [->|NE].
    + split; [intros [= <- <-]; now exists []|]. intros ([|p pre] & E); [cbn in E; now injection E as -> ->|]. cbn in E. injection E as _ ->.
      destruct NI. rewrite map_app. apply in_or_app. right. now left.
    + rewrite (IH ND). split; [intros (pre & ->); now exists ((c, w) :: pre)|]. intros ([|p pre] & E); cbn in E; [congruence|]. injection E as _ ->. now exists pre.
Qed.
Definition alpha_units (us : list (N * N)) : Prop := NoDup (map fst us) /\ forall c v, In (c, v) us -> is_alpha c = true.
Lemma alpha_rest pre p rest : alpha_units (pre ++ p :: rest) -> alpha_units rest /\ is_alpha (fst p) = true.
Proof.
  intros [ND A]. split; [split|].
  - rewrite map_app in ND. clear A. induction pre as [|q pre IH]; cbn in ND; apply NoDup_cons_iff in ND as [_ ND]; auto.
  - intros c v I. apply (A c v). apply in_or_app. right. now right.
  - destruct p as [c v]. apply (A c v). apply in_or_app. right. now left.
Qed.
Lemma alpha_delta : alpha_units DELTA_FORMATS.
Proof. split; [repeat constructor; vm_compute; intuition discriminate|]. intros c v I. vm_compute in I. repeat (destruct I as [[= <- <-]|I]; [reflexivity|]). contradiction. Qed.
Lemma parse_segments_sound k : forall t us dur d, (List.length t < k)%nat -> alpha_units us -> parse_segments (split_inclusive [] t) us dur = Ok d -> exists d', d = dur + d' /\ duration us t d'.
Proof.
  induction k as [|k IH]; intros t us dur d L A E; [lia|].
  pose proof (split_cases t [] (fun c I => match I with end)) as C. destruct (split_inclusive [] t) as [|s r] eqn:ES.
  - destruct C as [_ ->]. cbn in E. injection E as <-. exists 0. split; [lia|constructor].
  - cbn [parse_segments] in E. destruct (is_utf8 (removelast s)); [|discriminate]. cbn [negb] in E. destruct (parse_uint 4 (removelast s)) as [c|] eqn:PU; [|discriminate].
    destruct (skip_to (last s 0) us) as [[v us']|] eqn:SK; [|discriminate]. apply skip_to_iff in SK as (pre & ->); [|apply A].
    destruct (alpha_rest _ _ _ A) as [A' U].
    destruct C as [(n & u & t' & ET & -> & -> & LT & AU)|(-> & NE & NA)].
    + rewrite removelast_last in PU. rewrite last_last in *. apply u32_iff in PU as [PN PL]. cbn [app] in ET. subst t.
      apply IH in E as (d' & -> & D); [|lia|assumption]. exists (c * v + d'). split; [lia|]. now constructor.
    + cbn [fst] in U. rewrite NA in U; [discriminate|]. clear - NE. induction s as [|x [|y s] IH]; [contradiction|now left|]. right. apply IH. discriminate.
Qed.
Lemma parse_segments_complete us t d : duration us t d -> forall dur, alpha_units us -> parse_segments (split_inclusive [] t) us dur = Ok (dur + d).
Proof.
  induction 1 as [us|pre u v rest n c t d NU C D IH]; intros dur A.
  - cbn. f_equal. lia.
  - destruct (alpha_rest _ _ _ A) as [A' U]. cbn [fst] in U. rewrite split_digits; [|intros x I; destruct (numeral_chars _ _ _ NU I) as [-> |H]; [reflexivity|unfold is_alpha; lia]|exact U].
    cbn [app parse_segments]. rewrite removelast_last, last_last. rewrite ascii_utf8 by (intros x I; destruct (numeral_chars _ _ _ NU I); lia). cbn [negb].
    assert (parse_uint 4 n = Some c) as -> by now apply u32_iff. assert (skip_to u (pre ++ (u, v) :: rest) = Some (v, rest)) as -> by (apply skip_to_iff; [apply A|now exists pre]).
    rewrite IH by assumption. f_equal. lia.
Qed.
Lemma duration_iff t d : parse_duration_str t = Ok d <-> duration units t d.
Proof.
  rewrite units_formats. unfold parse_duration_str. split.
  - intros E. apply (parse_segments_sound (Datatypes.S (List.length t))) in E as (d' & -> & D); [|lia|apply alpha_delta]. exact D.
  - intros D. rewrite (parse_segments_complete _ _ _ D 0 alpha_delta). reflexivity.
Qed.
Lemma duration_fun t d d' : duration units t d -> duration units t d' -> d = d'.
Proof. intros A B. apply duration_iff in A, B. congruence. Qed.
Lemma duration_not_fuel t : parse_duration_str t <> OutOfFuel.
Proof.
  unfold parse_duration_str. generalize DELTA_FORMATS 0 (split_inclusive [] t). intros us dur segs. revert us dur.
  induction segs as [|s r IH]; intros us dur; cbn [parse_segments]; [discriminate|]. destruct (is_utf8 _); [|discriminate]. cbn [negb]. destruct (parse_uint _ _); [|discriminate]. destruct (skip_to _ _) as [[]|]; [apply IH|discriminate].
Qed.
(** ** Arithmetic *)
Lemma max_last : MAX_STAMP = last_stamp. Proof. reflexivity. Qed.
Lemma stamp_add_spec s d : s <= last_stamp -> stamp_add s d = N.min (s + d) last_stamp.
Proof. intros H. unfold stamp_add. rewrite max_last. lia. Qed.
Lemma stamp_sub_spec s d : s <= last_stamp -> stamp_sub s d = s - N.min s d.
Proof. intros H. unfold stamp_sub. rewrite max_last. lia. Qed.
Lemma checked_add_spec s d : s <= last_stamp -> d <= last_stamp -> forall v, checked_stamp_add s d = Some v <-> v = s + d /\ s + d <= last_stamp.
Proof. intros H D v. unfold checked_stamp_add. rewrite max_last. cbn zeta. rewrite N.min_l by exact D. destruct (last_stamp <? s + d) eqn:E; split; try discriminate; try lia; intros E'; try (injection E' as <-); intuition (try lia; try congruence). Qed.
Lemma checked_sub_spec s d : s <= last_stamp -> forall v, checked_stamp_sub s d = Some v <-> (v = s - d /\ d <= s) \/ (s = last_stamp /\ v = 0 /\ last_stamp < d).
Proof.
  intros H v. unfold checked_stamp_sub. rewrite max_last. destruct (s <? N.min d last_stamp) eqn:E; split.
  - discriminate.
  - lia.
  - intros [= <-]. destruct (N.leb_spec d last_stamp); [left|right]; lia.
  - intros D. f_equal. lia.
Qed.
Lemma checked_add_sat s d : s <= last_stamp -> match checked_stamp_add s d with Some v => v | None => MAX_STAMP end = N.min (s + d) last_stamp.
Proof. intros H. unfold checked_stamp_add. rewrite max_last. cbn zeta. destruct (last_stamp <? s + N.min d last_stamp) eqn:E; lia. Qed.
Lemma checked_sub_sat s d : s <= last_stamp -> match checked_stamp_sub s d with Some v => v | None => 0 end = s - N.min s d.
Proof. intros H. unfold checked_stamp_sub. rewrite max_last. destruct (s <? N.min d last_stamp) eqn:E; lia. Qed.
(** ** The arguments of the functions *)
Lemma formats_no_sign a : is_stamp_fmt a = true -> hd 0 a <> 43 /\ hd 0 a <> 45 /\ a <> [].
Proof. unfold is_stamp_fmt. cbn [existsb]. rewrite !orb_true_iff, !beqb_eq. intros [->|[->|[->|[->|]]]]; try discriminate; vm_compute; intuition discriminate. Qed.
(** [stamp_apply], one argument at a time. *)
Definition apply_dur (t : bytes) (k : N -> ModelEval.ar) : ModelEval.ar :=
  match parse_duration_str t with Ok d => k d | Err _ => fails | Panic => Panic | OutOfFuel => OutOfFuel end.
Lemma apply_step o s a rest : stamp_apply o s (a :: rest) =
  match a with
  | [] => stamp_apply o s rest
  | c :: r =>
      if c =? 43 then
        if hd 0 r =? 43 then apply_dur (tl r) (fun d => stamp_apply o (match checked_stamp_add s d with Some v => v | None => MAX_STAMP end) rest)
        else apply_dur r (fun d => match checked_stamp_add s d with Some v => stamp_apply o v rest | None => fails end)
      else if c =? 45 then
        if hd 0 r =? 45 then apply_dur (tl r) (fun d => stamp_apply o (match checked_stamp_sub s d with Some v => v | None => 0 end) rest)
        else apply_dur r (fun d => match checked_stamp_sub s d with Some v => stamp_apply o v rest | None => fails end)
      else if is_stamp_fmt a then match rest with [] => val (o_stamp o a s) | _ => fails end else fails
  end.
Proof.
  destruct a as [|c r]; [reflexivity|]. destruct (N.eqb_spec c 43) as [->|N1]; [|destruct (N.eqb_spec c 45) as [->|N2]].
  - destruct r as [|c r]; [reflexivity|]. cbn [hd tl]. destruct (N.eqb_spec c 43) as [->|N1]; [reflexivity|].
    destruct c as [|p]; [reflexivity|]. do 6 (destruct p as [p|p|]; try reflexivity; try (now destruct N1)).
  - destruct r as [|c r]; [reflexivity|]. cbn [hd tl]. destruct (N.eqb_spec c 45) as [->|N3]; [reflexivity|].
    destruct c as [|p]; [reflexivity|]. do 6 (destruct p as [p|p|]; try reflexivity; try (now destruct N3)).
  - destruct c as [|p]; [reflexivity|]. do 6 (destruct p as [p|p|]; try reflexivity; try (now destruct N1); try (now destruct N2)).
Qed.
Lemma hd_neq c r : hd 0 r <> c \/ exists t, r = c :: t \/ (r = [] /\ c = 0).
Proof. destruct r as [|x r]; cbn; [destruct (N.eq_dec 0 c); [right; exists []; right; auto|now left]|]. destruct (N.eq_dec x c) as [->|]; [right; exists r; now left|now left]. Qed.
(** A value that is not one of the formats' *)
Definition no_format (args : list bytes) : Prop := Forall (fun a => is_stamp_fmt a = false) args.
Lemma apply_iff o args : forall s v, s <= last_stamp -> no_format args -> short_steps args ->
  stamp_apply o s args = Ok (Some v) <-> exists r, moves s args r /\ r <= last_stamp /\ v = be_encode 8 r.
Proof.
  induction args as [|a args IH]; intros s v HS NF SH.
  - cbn [stamp_apply]. unfold val. split; [intros [= <-]; exists s; repeat split; [constructor|assumption]|]. intros (r & M & _ & ->). inversion M. reflexivity.
  - apply Forall_cons_iff in NF as [NA NF]. apply Forall_cons_iff in SH as [SA SH]. rewrite apply_step. destruct a as [|c r].
    { rewrite IH by assumption. split; intros (x & M & L & ->); exists x; repeat split; auto; [now constructor|now inversion M]. }
    destruct (N.eqb_spec c 43) as [->|N1]; [|destruct (N.eqb_spec c 45) as [->|N2]].
    + destruct (N.eqb_spec (hd 0 r) 43) as [H|H].
      * destruct r as [|x r]; [discriminate|]. cbn [hd tl] in *. subst x. unfold apply_dur. destruct (parse_duration_str r) as [d|e| |] eqn:P.
        -- apply duration_iff in P. rewrite checked_add_sat by assumption. rewrite IH by (assumption || lia). split; intros (z & M & L & ->); exists z; repeat split; auto.
           ++ now apply mv_sat_add with d.
           ++ inversion M; subst; [now destruct H1|]. now rewrite (duration_fun _ _ _ P H2).
        -- split; [discriminate|]. intros (z & M & _). inversion M; subst; [now destruct H1|]. apply duration_iff in H2. congruence.
        -- split; [discriminate|]. intros (z & M & _). inversion M; subst; [now destruct H1|]. apply duration_iff in H2. congruence.
        -- split; [discriminate|]. intros (z & M & _). inversion M; subst; [now destruct H1|]. apply duration_iff in H2. congruence.
      * unfold apply_dur. assert (NM : forall z, moves s ((43 :: r) :: args) z -> exists d, duration units r d /\ s + d <= last_stamp /\ moves (s + d) args z).
        { intros z M. inversion M; subst; [now exists d|now destruct H]. }
        destruct (parse_duration_str r) as [d|e| |] eqn:P; [|split; [discriminate|]; intros (z & M & _); apply NM in M as (d & D & _); apply duration_iff in D; congruence..].
        apply duration_iff in P. assert (DL : d <= last_stamp) by (apply (SA r); auto).
        destruct (checked_stamp_add s d) as [w|] eqn:CA.
        -- apply checked_add_spec in CA as [-> CL]; [|assumption..]. rewrite IH by assumption. split; intros (z & M & L & ->); exists z; repeat split; auto.
           ++ now apply mv_add with d.
           ++ apply NM in M as (d' & D & _ & M). now rewrite (duration_fun _ _ _ P D).
        -- split; [discriminate|]. intros (z & M & _). apply NM in M as (d' & D & B & _). rewrite <- (duration_fun _ _ _ P D) in B.
           assert (checked_stamp_add s d = Some (s + d)) by (apply checked_add_spec; auto). congruence.
    + destruct (N.eqb_spec (hd 0 r) 45) as [H|H].
      * destruct r as [|x r]; [discriminate|]. cbn [hd tl] in *. subst x. unfold apply_dur. destruct (parse_duration_str r) as [d|e| |] eqn:P.
        -- apply duration_iff in P. rewrite checked_sub_sat by assumption. rewrite IH by (assumption || lia). split; intros (z & M & L & ->); exists z; repeat split; auto.
           ++ now apply mv_sat_sub with d.
           ++ inversion M; subst; [now destruct H1|]. now rewrite (duration_fun _ _ _ P H2).
        -- split; [discriminate|]. intros (z & M & _). inversion M; subst; [now destruct H1|]. apply duration_iff in H2. congruence.
        -- split; [discriminate|]. intros (z & M & _). inversion M; subst; [now destruct H1|]. apply duration_iff in H2. congruence.
        -- split; [discriminate|]. intros (z & M & _). inversion M; subst; [now destruct H1|]. apply duration_iff in H2. congruence.
      * unfold apply_dur. assert (NM : forall z, moves s ((45 :: r) :: args) z -> exists d, duration units r d /\ d <= s /\ moves (s - d) args z).
        { intros z M. inversion M; subst; [now exists d|now destruct H]. }
        destruct (parse_duration_str r) as [d|e| |] eqn:P; [|split; [discriminate|]; intros (z & M & _); apply NM in M as (d & D & _); apply duration_iff in D; congruence..].
        apply duration_iff in P. assert (DL : d <= last_stamp) by (apply (SA r); auto).
        destruct (checked_stamp_sub s d) as [w|] eqn:CA.
        -- apply checked_sub_spec in CA as [[-> CL]|CL]; [|lia|assumption]. rewrite IH by (assumption || lia). split; intros (z & M & L & ->); exists z; repeat split; auto.
           ++ now apply mv_sub with d.
           ++ apply NM in M as (d' & D & _ & M). now rewrite (duration_fun _ _ _ P D).
        -- split; [discriminate|]. intros (z & M & _). apply NM in M as (d' & D & B & _). rewrite <- (duration_fun _ _ _ P D) in B.
           assert (checked_stamp_sub s d = Some (s - d)) by (apply checked_sub_spec; auto). congruence.
    + rewrite NA. split; [discriminate|]. intros (z & M & _). inversion M; subst; congruence.
Qed.
(** Without the restriction on the durations, what is certain. *)
Lemma apply_range o args : forall s v, s <= last_stamp -> no_format args -> stamp_apply o s args = Ok (Some v) -> exists r, r <= last_stamp /\ v = be_encode 8 r.
Proof.
  induction args as [|a args IH]; intros s v HS NF.
  - intros [= <-]. now exists s.
  - apply Forall_cons_iff in NF as [NA NF]. rewrite apply_step. destruct a as [|c r]; [now apply IH|].
    destruct (c =? 43); [|destruct (c =? 45)]; [destruct (hd 0 r =? 43)|destruct (hd 0 r =? 45)|]; unfold apply_dur.
    + destruct (parse_duration_str (tl r)); try discriminate. rewrite checked_add_sat by assumption. apply IH; [lia|assumption].
    + destruct (parse_duration_str r) as [d| | |]; try discriminate. unfold checked_stamp_add. cbn zeta. destruct (_ <? _) eqn:E; [discriminate|]. apply IH; [rewrite <- max_last; lia|assumption].
    + destruct (parse_duration_str (tl r)); try discriminate. rewrite checked_sub_sat by assumption. apply IH; [lia|assumption].
    + destruct (parse_duration_str r) as [d| | |]; try discriminate. unfold checked_stamp_sub. destruct (_ <? _) eqn:E; [discriminate|]. apply IH; [lia|assumption].
    + rewrite NA. discriminate.
Qed.
(** ** Printing durations *)
Lemma duration_weaken p us t d : duration us t d -> duration (p :: us) t d.
Proof. intros H. destruct H; [constructor|]. now apply (dur_unit (p :: pre)). Qed.
Fixpoint chain (us : list (N * N)) : Prop :=
  match us with [] => False | (_, v) :: r => v <> 0 /\ match r with [] => v = 1 | (_, v') :: _ => v <= 2 ^ 32 * v' /\ chain r end end.
Lemma fmt_parts_duration fdiv us : forall d, chain us -> (forall a p, a <= d -> In p us -> fdiv a (snd p) = a / snd p) ->
  d / snd (hd (0, 1) us) < 2 ^ 32 -> duration us (fmt_parts fdiv false [] us d) d.
Proof.
  induction us as [|[u v] us IH]; intros d CH EX B; [destruct CH|]. cbn [fmt_parts hd snd chain] in *. destruct CH as [V CH].
  assert (E : fdiv d v = d / v) by (apply (EX d (u, v)); [lia|now left]). rewrite E. cbn [orb app].
  pose proof (N.div_mod d v V) as DM. pose proof (N.mod_lt d v V) as ML. assert (R : d - v * (d / v) = d mod v) by lia. rewrite R.
  assert (REST : duration us (fmt_parts fdiv false [] us (d mod v)) (d mod v)).
  { destruct us as [|[u' v'] us].
    - rewrite CH, N.mod_1_r. constructor.
    - destruct CH as [CV CH]. apply IH; [exact CH|intros a p A I; apply EX; [lia|now right]|]. cbn [hd snd].
      destruct CH as [V' _]. apply N.div_lt_upper_bound; [exact V'|lia]. }
  destruct (N.eqb_spec (d / v) 0) as [Z|Z]; cbn [negb].
  - cbn [app]. apply duration_weaken. rewrite <- (N.mod_small d v) at 2; [exact REST|]. rewrite Z in DM. lia.
  - rewrite <- app_assoc. cbn [app]. replace d with (d / v * v + d mod v) at 3 by lia. apply (dur_unit []); [|exact B|exact REST]. left. apply to_string_canonical.
Qed.
Lemma filter_all {A} (f : A -> bool) l : forallb f l = true -> filter f l = l.
Proof. induction l as [|x l IH]; cbn; [reflexivity|]. intros H. apply andb_prop in H as [-> H]. now rewrite IH. Qed.
Lemma filter_suffix d us : chain us -> (forall p q l, us = l ++ p :: q -> forall x, In x q -> snd x <= snd p) ->
  exists pre, us = pre ++ filter (fun '(_, v) => v <=? d) us /\ (forall p, In p pre -> d < snd p).
Proof.
  intros _. induction us as [|[u v] us IH]; intros S; [exists []; now split|]. destruct IH as (pre & E & P).
  { intros p q l EQ. apply (S p q ((u, v) :: l)). now rewrite EQ. }
  cbn [filter]. destruct (N.leb_spec v d).
  - exists []. split; [|contradiction]. cbn [app]. f_equal. symmetry. apply filter_all. apply forallb_forall. intros [c w] I. apply N.leb_le.
    specialize (S (u, v) us [] eq_refl _ I). cbn in S. lia.
  - exists ((u, v) :: pre). split; [cbn [app]; now rewrite E at 1|]. intros p [<-|I]; auto.
Qed.
Lemma units_sorted p q l : units = l ++ p :: q -> forall x, In x q -> snd x <= snd p.
Proof.
  assert (S : StronglySorted (fun a b => snd b <= snd a) units) by (repeat constructor; vm_compute; discriminate).
  intros E. rewrite E in S. clear E. induction l as [|y l IH]; cbn in S; apply StronglySorted_inv in S as [S F]; [|auto]. intros x I. now apply (proj1 (Forall_forall _ _) F).
Qed.
Lemma chain_suffix pre us : us <> [] -> chain (pre ++ us) -> chain us.
Proof.
  intros NE. induction pre as [|[u v] pre IH]; [auto|]. cbn [app chain]. intros [_ C]. apply IH. destruct (pre ++ us) as [|[u' v'] r] eqn:E; [|apply C].
  destruct pre; [now subst|discriminate].
Qed.
Lemma suffix_duration pre us t d : duration us t d -> duration (pre ++ us) t d.
Proof. intros D. induction pre as [|p pre IH]; [exact D|]. now apply duration_weaken. Qed.
Definition year : N := 365 * day + 6 * hour.
Lemma dfmt_duration fdiv d : d < 2 ^ 32 * year -> (forall a p, a <= d -> In p units -> fdiv a (snd p) = a / snd p) -> duration units (duration_as_stamp_dfmt fdiv d) d.
Proof.
  intros B EX. unfold duration_as_stamp_dfmt, duration_to_string. change (firstn 9 DELTA_FORMATS) with DELTA_FORMATS. rewrite <- units_formats.
  destruct (filter_suffix d units) as (pre & E & P); [vm_compute; intuition discriminate|exact units_sorted|]. remember (filter (fun '(_, v) => v <=? d) units) as parts eqn:EQ. clear EQ.
  assert (FN : firstn 10 parts = parts).
  { apply firstn_all2. assert (List.length units = List.length (pre ++ parts)) by now rewrite <- E. rewrite app_length in H. change (List.length units) with 9%nat in H. lia. }
  rewrite FN. destruct parts as [|p ps].
  - assert (d = 0) as ->. { assert (I : In (117, 1) pre) by (rewrite app_nil_r in E; rewrite <- E; vm_compute; tauto). apply P in I. cbn in I. lia. }
    change (48 :: [fst (last units (0, 0))]) with ([48] ++ 117 :: []). rewrite units_formats. apply (dur_unit (removelast DELTA_FORMATS) 117 1 [] [48] 0 [] 0); [|lia|constructor].
    left. split; [discriminate|]. exists [0]. split; [|reflexivity]. constructor; [|constructor]. apply digit_of_iff; [lia|reflexivity].
  - rewrite E at 1. apply suffix_duration. apply fmt_parts_duration.
    + apply (chain_suffix pre); [discriminate|]. rewrite <- E. vm_compute. intuition discriminate.
    + intros a q A I. apply EX; [assumption|]. rewrite E. apply in_or_app. now right.
    + cbn [hd].
      destruct pre as [|z pre _] using rev_ind.
      * cbn [app] in E. assert (p = (89, year)) as -> by (assert (HH : hd (0, 0) units = p) by (rewrite E; reflexivity); rewrite <- HH; vm_compute; reflexivity).
        cbn [snd]. apply N.div_lt_upper_bound; [discriminate|lia].
      * assert (D : d < snd z) by (apply P, in_or_app; right; now left). rewrite <- app_assoc in E. cbn [app] in E.
        assert (C : chain (z :: p :: ps)) by (apply (chain_suffix pre); [discriminate|]; rewrite <- E; vm_compute; intuition discriminate).
        destruct z as [zu zv], p as [pu pv]. cbn [chain snd] in *. destruct C as (_ & LE & C & _). apply N.div_lt_upper_bound; [exact C|lia].
Qed.

(** ** Stamps and ranges as text *)
Lemma stamp_str_iff t now s : (forall n, now = Some n -> n <= last_stamp) -> stamp_from_str t now = Ok s <-> stamp_text now t s.
Proof.
  intros HN. unfold stamp_from_str. split.
  - destruct (stamp_from_digits t) as [d| | |] eqn:SD.
    { intros [= <-]. unfold stamp_from_digits in SD. destruct (beqb t (str "++")) eqn:E1; [apply beqb_eq in E1 as ->; injection SD as <-; constructor|].
      destruct (beqb t (str "0")) eqn:E2; [apply beqb_eq in E2 as ->; injection SD as <-; apply st_number; [split; [discriminate|]; exists [0]; split; [constructor; [apply digit_of_iff; [lia|reflexivity]|constructor]|reflexivity]|discriminate]|].
      destruct (beqb t (str "--")) eqn:E3; [apply beqb_eq in E3 as ->; injection SD as <-; constructor|]. cbn [orb] in SD.
      destruct (forallb _ t) eqn:F; [|discriminate]. destruct (parse_uint 8 t) as [v|] eqn:P; [|discriminate]. injection SD as <-.
      unfold parse_uint in P. apply parse_radix_iff in P as [P L]; [|lia..]. destruct P as [P|(r & -> & _)]; [now apply st_number|]. discriminate. }
    all: destruct now as [n|]; [|discriminate]; unfold stamp_from_now; destruct (beqb t (str "now")) eqn:E; [apply beqb_eq in E as ->; intros [= <-]; now constructor|].
    all: destruct t as [|c t]; [discriminate|]; destruct (N.eq_dec c 43) as [->|N1]; [|destruct (N.eq_dec c 45) as [->|N2]].
    all: try (destruct (parse_duration_str t) as [d| | |] eqn:P; cbn [obind]; try discriminate; intros [= <-]; apply duration_iff in P).
    all: try (rewrite stamp_add_spec by auto; now apply st_plus).
    all: try (rewrite stamp_sub_spec by auto; now apply st_minus).
    all: destruct c as [|p]; [discriminate|]; do 6 (destruct p as [p|p|]; try discriminate; try (now destruct N1); try (now destruct N2)).
  - assert (ND : forall c t d, (c = 43 \/ c = 45) -> duration units t d -> exists e, stamp_from_digits (c :: t) = Err e).
    { intros c t0 d C D. unfold stamp_from_digits. destruct (beqb (c :: t0) (str "++")) eqn:E1; [apply beqb_eq in E1; injection E1 as -> ->; apply duration_iff in D; vm_compute in D; discriminate|].
      destruct (beqb (c :: t0) (str "0")) eqn:E2; [apply beqb_eq in E2; injection E2 as -> ->; lia|]. destruct (beqb (c :: t0) (str "--")) eqn:E3; [apply beqb_eq in E3; injection E3 as -> ->; apply duration_iff in D; vm_compute in D; discriminate|].
      cbn [orb forallb]. destruct C as [->| ->]; cbn [N.leb andb]; now exists tt. }
    intros H. destruct H as [| |t n NU L|n E|n t d E D|n t d E D].
    + reflexivity.
    + reflexivity.
    + unfold stamp_from_digits. destruct (beqb t (str "++")) eqn:E1; [apply beqb_eq in E1 as ->; destruct NU as (_ & ds & F & _); inversion F; subst; apply digit_of_iff in H1; [discriminate|lia]|].
      assert (PU : parse_uint 8 t = Some n) by (unfold parse_uint; apply parse_radix_iff; [lia..|split; [now left|exact L]]).
      destruct (beqb t (str "0")) eqn:E2; [apply beqb_eq in E2 as ->; vm_compute in PU; injection PU as <-; reflexivity|].
      destruct (beqb t (str "--")) eqn:E3; [apply beqb_eq in E3 as ->; vm_compute in PU; discriminate|]. cbn [orb].
      assert (forallb (fun c => (48 <=? c) && (c <=? 57)) t = true) as -> by (apply forallb_forall; intros c I; pose proof (number10_digit _ _ _ NU I); lia). now rewrite PU.
    + subst now. reflexivity.
    + subst now. destruct (ND 43 t d (or_introl eq_refl) D) as [e ->]. unfold stamp_from_now. change (beqb (43 :: t) (str "now")) with false. cbn iota.
      apply duration_iff in D. rewrite D. cbn [obind]. now rewrite stamp_add_spec by auto.
    + subst now. destruct (ND 45 t d (or_intror eq_refl) D) as [e ->]. unfold stamp_from_now. change (beqb (45 :: t) (str "now")) with false. cbn iota.
      apply duration_iff in D. rewrite D. cbn [obind]. now rewrite stamp_sub_spec by auto.
Qed.
Lemma split_dots_plain n : forall cur t, ~ In 46 n -> split_dots cur (n ++ 46 :: 46 :: t) = (cur ++ n) :: split_dots [] t.
Proof.
  induction n as [|c n IH]; intros cur t H; cbn [app split_dots].
  - now rewrite N.eqb_refl, app_nil_r.
  - destruct (N.eqb_spec c 46) as [->|_]; [destruct H; now left|]. rewrite IH by (intros I; apply H; now right). now rewrite <- app_assoc.
Qed.
Lemma split_dots_last n : forall cur, ~ In 46 n -> split_dots cur n = [cur ++ n].
Proof.
  induction n as [|c n IH]; intros cur H; cbn [split_dots].
  - now rewrite app_nil_r.
  - destruct (N.eqb_spec c 46) as [->|_]; [destruct H; now left|]. rewrite IH by (intros I; apply H; now right). now rewrite <- app_assoc.
Qed.
Lemma to_string_nodot n : ~ In 46 (to_string n).
Proof. intros I. apply to_string_digits in I. lia. Qed.
Lemma stamp_to_string n now : n <= last_stamp -> stamp_from_str (to_string n) now = Ok n.
Proof.
  intros L. assert (stamp_from_str (to_string n) None = Ok n) by (apply stamp_str_iff; [discriminate|]; apply st_number; [apply to_string_canonical|assumption]).
  unfold stamp_from_str in *. destruct (stamp_from_digits (to_string n)); try discriminate. assumption.
Qed.
Lemma range_end_ok t now d s : t <> [] -> stamp_from_str t now = Ok s -> range_end (Some t) now d = Ok s.
Proof. intros NE H. unfold range_end. destruct t; [contradiction|assumption]. Qed.
Lemma range_roundtrip now a b : a <= last_stamp -> b <= last_stamp -> range_from_str (range_display (mkRange a b)) now = Ok (mkRange a b).
Proof.
  intros A B. unfold range_display. cbn [sr_start sr_end]. assert (NE : forall n, to_string n <> []) by (intros n; apply (proj1 (to_string_canonical n))).
  assert (MM : forall now, stamp_from_str (str "++") now = Ok last_stamp) by reflexivity.
  assert (G : forall x y a b, ~ In 46 x -> ~ In 46 y -> x <> [] -> y <> [] -> stamp_from_str x now = Ok a -> stamp_from_str y now = Ok b -> range_from_str (x ++ 46 :: 46 :: y) now = Ok (mkRange a b)).
  { intros x y p q Dx Dy Nx Ny Sx Sy. unfold range_from_str. rewrite split_dots_plain, split_dots_last by assumption. cbn [app nth_error].
    rewrite (range_end_ok x now MAX_STAMP p), (range_end_ok y now 0 q) by assumption. reflexivity. }
  destruct (N.eqb_spec a MAX_STAMP) as [->|N1]; [|destruct (N.eqb_spec b MAX_STAMP) as [->|N2]].
  - apply (G (str "++")); auto using to_string_nodot, stamp_to_string; [intros [H|[H|[]]]; discriminate|discriminate].
  - apply (G (to_string a) (str "++")); auto using to_string_nodot, stamp_to_string; [intros [H|[H|[]]]; discriminate|discriminate].
  - apply G; auto using to_string_nodot, stamp_to_string.
Qed.

(** ** The time between two stamps as text *)
Lemma fmt_parts_fields fdiv us : forall d, us <> [] -> Forall (fun p => snd p <> 0) us -> (forall a p, a <= d -> In p us -> fdiv a (snd p) = a / snd p) ->
  exists n, fields us (fmt_parts fdiv true (str " ") us d) n /\ n <= d < n + snd (last us (0, 0)).
Proof.
  induction us as [|[u v] us IH]; intros d NE NZ EX; [contradiction|]. cbn [fmt_parts]. inversion NZ as [|? ? V NZ']; subst. cbn [snd] in V.
  assert (E : fdiv d v = d / v) by (apply (EX d (u, v)); [lia|now left]). rewrite E. cbn [orb].
  pose proof (N.div_mod d v V) as DM. pose proof (N.mod_lt d v V) as ML. assert (R : d - v * (d / v) = d mod v) by lia. rewrite R.
  assert (T : number 10 (to_string (d / v)) (d / v)) by apply to_string_canonical.
  assert (SH : forall x, (str " " ++ to_string (d / v) ++ [u]) ++ x = 32 :: to_string (d / v) ++ u :: x) by (intros x; rewrite <- !app_assoc; reflexivity). rewrite SH.
  destruct us as [|p us].
  - exists (d / v * v + 0). split; [apply f_unit; [exact T|constructor]|]. cbn [last snd]. lia.
  - destruct (IH (d mod v)) as (n & F & L); [discriminate|exact NZ'|intros a q A I; apply EX; [lia|now right]|]. exists (d / v * v + n). split; [now apply f_unit|].
    change (last ((u, v) :: p :: us) (0, 0)) with (last (p :: us) (0, 0)). lia.
Qed.
Lemma delta_iff fdiv now other k : (1 <= k)%nat -> (forall a p, a <= N.max now other -> In p units -> fdiv a (snd p) = a / snd p) ->
  delta_text now other k (delta_stamp_p fdiv now other 9 k).
Proof.
  intros K EX. unfold delta_text, delta_stamp_p. set (d := if now <? other then other - now else now - other).
  assert (E : (if now <? other then (other - now, 43) else (now - other, 45)) = (d, if now <? other then 43 else 45)) by (unfold d; destruct (now <? other); reflexivity). rewrite E.
  assert (DM : d <= N.max now other) by (unfold d; destruct (now <? other); lia). unfold duration_to_string. change (firstn 9 DELTA_FORMATS) with DELTA_FORMATS. rewrite <- units_formats.
  destruct (filter_suffix d units) as (pre & EQ & P); [vm_compute; intuition discriminate|exact units_sorted|]. remember (filter (fun '(_, v) => v <=? d) units) as fs eqn:FS.
  exists pre, (firstn k fs), (skipn k fs).
  destruct fs as [|p fs].
  - exists (str "0u"), 0. rewrite firstn_nil, skipn_nil. split; [reflexivity|]. split; [exact EQ|]. split; [exact P|]. left. split; [|reflexivity].
    assert (I : In (117, 1) pre) by (rewrite app_nil_r in EQ; rewrite <- EQ; vm_compute; tauto). specialize (P _ I). cbn in P. lia.
  - destruct k as [|k]; [lia|]. set (us := firstn (S k) (p :: fs)). assert (NE : us <> []) by discriminate.
    assert (IN : forall q, In q us -> In q units). { intros q I. rewrite EQ. apply in_or_app. right. rewrite <- (firstn_skipn (S k) (p :: fs)). apply in_or_app. now left. }
    destruct (fmt_parts_fields fdiv us d NE) as (n & FI & L).
    { apply Forall_forall. intros q I. apply IN in I. assert (U : Forall (fun p => snd p <> 0) units) by (vm_compute; repeat (constructor; [discriminate|]); constructor). rewrite Forall_forall in U. auto. }
    { intros a q A I. apply EX; [lia|auto]. }
    exists (fmt_parts fdiv true (str " ") us d), n. split; [unfold us; cbn [firstn]; reflexivity|]. split; [rewrite EQ at 1; f_equal; symmetry; apply firstn_skipn|]. split; [exact P|]. right.
    split; [exact NE|]. split; [apply firstn_le_length|]. split.
    { intros N. unfold us. rewrite firstn_length_le; [reflexivity|]. destruct (Nat.le_gt_cases (S k) (List.length (p :: fs))) as [H|H]; [exact H|]. destruct N. apply skipn_all2. lia. }
    split; [|split; [exact FI|exact L]]. unfold us. cbn [firstn hd]. assert (I : In p (filter (fun '(_, v) => v <=? d) units)) by (rewrite <- FS; now left). apply filter_In in I as [_ I]. destruct p as [u v]. now apply N.leb_le in I.
Qed.
