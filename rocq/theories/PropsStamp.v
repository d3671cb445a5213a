(** Stamps and durations: arithmetic (C53) and text (C68). *)
From Verif Require Import Bytes ModelAbe ModelFmt SpecFmt ProofFmt ModelEval ModelFn ProofEval ModelQuery ModelStamp SpecStamp ProofStamp PropsEval.

(** ** C53 *)
(** The saturating operations stop at the ends. *)
Theorem C53_saturating s d : s <= last_stamp -> stamp_add s d = N.min (s + d) last_stamp /\ stamp_sub s d = s - N.min s d.
Proof. intros H. split; [now apply stamp_add_spec|now apply stamp_sub_spec]. Qed.
Print Assumptions C53_saturating.
(** The checked ones give the exact result or none, except that a duration above the last stamp
    counts as the last stamp. *)
Theorem C53_checked s d : s <= last_stamp ->
  (forall v, checked_stamp_add s d = Some v <-> (v = s + d /\ s + d <= last_stamp) \/ (s = 0 /\ v = last_stamp /\ last_stamp < d)) /\
  (forall v, checked_stamp_sub s d = Some v <-> (v = s - d /\ d <= s) \/ (s = last_stamp /\ v = 0 /\ last_stamp < d)).
Proof.
  intros H. split; [|now apply checked_sub_spec]. intros v. destruct (N.leb_spec d last_stamp) as [D|D].
  - rewrite checked_add_spec by assumption. intuition lia.
  - unfold checked_stamp_add. rewrite max_last. cbn zeta. rewrite N.min_r by lia. destruct (last_stamp <? s + last_stamp) eqn:E; split; try discriminate; try lia.
    + intros [= <-]. right. lia.
    + intros [[_ X]|(-> & -> & _)]; [lia|reflexivity].
Qed.
Print Assumptions C53_checked.
Example C53_ex : stamp_add (last_stamp - 5) 6 = last_stamp /\ checked_stamp_add (last_stamp - 5) 6 = None /\ checked_stamp_add 5 6 = Some 11 /\ checked_stamp_sub 5 6 = None /\ stamp_sub 5 6 = 0.
Proof. repeat split. Qed.
(** The functions of expressions give the stamp that their arguments describe, and else no value. *)
Theorem C53_functions o ctx s args v : no_format args -> short_steps args -> lenN args <= 15 -> o_now o <= last_stamp -> s <= last_stamp ->
  let gives id inp init from := sc_func (core_scope o) ctx (str id) inp init = Ok (Some v) <-> exists r, moves from args r /\ r <= last_stamp /\ v = be_encode 8 r in
  gives "now"%string args true (o_now o) /\ gives "epoch"%string args true 0 /\ gives "us"%string args true 0 /\ gives "us++"%string args true last_stamp /\
  gives "us"%string (be_encode 8 s :: args) false s.
Proof.
  intros NF SH L ON S gives. unfold gives. clear gives. rewrite !(proj1 (core_flat o)).
  assert (A : forall from, from <= last_stamp -> stamp_apply o from args = Ok (Some v) <-> exists r, moves from args r /\ r <= last_stamp /\ v = be_encode 8 r) by (intros; now apply apply_iff).
  assert (FIT : fit (N.of_nat 8) (be_encode 8 s) = Ok (be_encode 8 s)) by (unfold fit; rewrite lenN_be_encode, N.eqb_refl; reflexivity).
  repeat split.
  - rewrite (escope_some _ _ _ _ _ _ (fn_ctx (str "now") (Some true) 0 16 (fun _ i _ => stamp_apply o (o_now o) i))); [|reflexivity|now right|split; [apply N.le_0_l|cbn; lia]]. now apply A.
  - intros R. rewrite (escope_some _ _ _ _ _ _ (fn_ctx (str "now") (Some true) 0 16 (fun _ i _ => stamp_apply o (o_now o) i))); [|reflexivity|now right|split; [apply N.le_0_l|cbn; lia]]. now apply A.
  - rewrite (escope_some _ _ _ _ _ _ (fn_ctx (str "epoch") (Some true) 0 16 (fun _ i _ => stamp_apply o 0 i))); [|reflexivity|now right|split; [apply N.le_0_l|cbn; lia]]. now apply A.
  - intros R. rewrite (escope_some _ _ _ _ _ _ (fn_ctx (str "epoch") (Some true) 0 16 (fun _ i _ => stamp_apply o 0 i))); [|reflexivity|now right|split; [apply N.le_0_l|cbn; lia]]. now apply A.
  - rewrite (escope_some _ _ _ _ _ _ (nth 0 (stamp_fe o) (fn [] 0 0 (fun _ => fails)))); [|reflexivity|now left|split; [apply N.le_0_l|cbn; lia]]. now apply A.
  - intros R. rewrite (escope_some _ _ _ _ _ _ (nth 0 (stamp_fe o) (fn [] 0 0 (fun _ => fails)))); [|reflexivity|now left|split; [apply N.le_0_l|cbn; lia]]. now apply A.
  - rewrite (escope_some _ _ _ _ _ _ (fn_ctx (str "us++") (Some true) 0 16 (fun _ i _ => stamp_apply o MAX_STAMP i))); [|reflexivity|now right|split; [apply N.le_0_l|cbn; lia]]. now apply A.
  - intros R. rewrite (escope_some _ _ _ _ _ _ (fn_ctx (str "us++") (Some true) 0 16 (fun _ i _ => stamp_apply o MAX_STAMP i))); [|reflexivity|now right|split; [apply N.le_0_l|cbn; lia]]. now apply A.
  - rewrite (escope_some _ _ _ _ _ _ (nth 0 (stamp_fe o) (fn [] 0 0 (fun _ => fails)))); [|reflexivity|now left|split; [apply N.le_0_l|cbn [stamp_fe nth fn_ctx f_hi]; rewrite lenN_cons; lia]].
    cbn [stamp_fe nth fn_ctx f_apply arg tl]. unfold uint_of_bytes. rewrite FIT, be_decode_encode by (unfold last_stamp in S; change (256 ^ N.of_nat 8) with (2 ^ 64); lia). now apply A.
  - intros R. rewrite (escope_some _ _ _ _ _ _ (nth 0 (stamp_fe o) (fn [] 0 0 (fun _ => fails)))); [|reflexivity|now left|split; [apply N.le_0_l|cbn [stamp_fe nth fn_ctx f_hi]; rewrite lenN_cons; lia]].
    cbn [stamp_fe nth fn_ctx f_apply arg tl]. unfold uint_of_bytes. rewrite FIT, be_decode_encode by (unfold last_stamp in S; change (256 ^ N.of_nat 8) with (2 ^ 64); lia). now apply A.
Qed.
Print Assumptions C53_functions.
Lemma two : number 10 (str "2") 2.
Proof. split; [discriminate|]. exists [2]. split; [|reflexivity]. constructor; [|constructor]. apply digit_of_iff; [lia|reflexivity]. Qed.
Example C53_functions_ex : let args := [str "+2D2h"; []; str "--2Y"; str "++2s"] in
  no_format args /\ short_steps args /\ moves 5 args 2000000 /\ lk_eval 3 (core_scope o1) (str "[epoch:+5u:+2D2h::--2Y:++2s]") false = Ok (be_encode 8 2000000).
Proof.
  assert (D2 : duration units (str "2D2h") (2 * day + (2 * hour + 0))).
  { apply (dur_unit (firstn 3 units) 68 day (skipn 4 units) (str "2") 2 (str "2h")); [left; apply two|reflexivity|].
    apply (dur_unit [] 104 hour (skipn 5 units) (str "2") 2 []); [left; apply two|reflexivity|constructor]. }
  assert (Y2 : duration units (str "2Y") (2 * year + 0)) by (apply (dur_unit [] 89 year (skipn 1 units) (str "2") 2 []); [left; apply two|reflexivity|constructor]).
  assert (S2 : duration units (str "2s") (2 * sec + 0)) by (apply (dur_unit (firstn 6 units) 115 sec (skipn 7 units) (str "2") 2 []); [left; apply two|reflexivity|constructor]).
  cbn zeta. split; [repeat constructor|]. split; [|split; [|vm_compute; reflexivity]].
  - constructor; [|constructor; [|constructor; [|constructor; [|constructor]]]].
    + intros t d [[E _]|[E _]] D; [|discriminate]. injection E as <-. rewrite (duration_fun _ _ _ D D2). vm_compute. discriminate.
    + intros t d [[E _]|[E _]]; discriminate.
    + intros t d [[E _]|[E H]]; [discriminate|]. injection E as <-. now destruct H.
    + intros t d [[E H]|[E _]]; [|discriminate]. injection E as <-. now destruct H.
  - apply mv_add with (2 * day + (2 * hour + 0)); [discriminate|exact D2|vm_compute; discriminate|]. apply mv_skip. apply mv_sat_sub with (2 * year + 0); [exact Y2|].
    apply mv_sat_add with (2 * sec + 0); [exact S2|]. vm_compute. constructor.
Qed.
(** Without the bound on the durations the value is still a stamp. *)
Theorem C53_in_range o s args v : s <= last_stamp -> no_format args -> stamp_apply o s args = Ok (Some v) -> exists r, r <= last_stamp /\ v = be_encode 8 r.
Proof. intros H NF. now apply apply_range. Qed.
Print Assumptions C53_in_range.
(** The stamp of the command line's durations wraps around: 584943 years are 400 years. *)
Theorem C53_durationstr_refuted : exists d, parse_duration_str (str "584943Y") = Ok d /\ duration units (str "584943Y") d /\ last_stamp < d /\ durationstr_stamp d = 12653143090448384.
Proof.
  exists (584943 * year). assert (P : parse_duration_str (str "584943Y") = Ok (584943 * year)) by (vm_compute; reflexivity). split; [exact P|]. split; [now apply duration_iff|]. vm_compute. now split.
Qed.
Print Assumptions C53_durationstr_refuted.
Theorem C53_durationstr_partial d : d <= last_stamp -> durationstr_stamp d = d.
Proof. intros H. unfold durationstr_stamp. apply N.mod_small. unfold last_stamp in H. lia. Qed.
Print Assumptions C53_durationstr_partial.
(** A checked step by more than the last stamp is not an error when it starts at the other end. *)
Theorem F67_checked_huge : lk_eval 2 (core_scope o1) (str "[epoch:+4294967295Y]") false = Ok (be_encode 8 last_stamp) /\
  lk_eval 2 (core_scope o1) (str "[epoch:+1u:+4294967295Y]") false = Err (LkEval (FuncErr (str "epoch"))).
Proof. split; vm_compute; reflexivity. Qed.
Print Assumptions F67_checked_huge.
(** Digits that are no UTF-8 abort. *)
Theorem F40_not_utf8 : lk_eval 2 (core_scope o1) (str "[now:+\xfas]") false = Panic.
Proof. vm_compute. reflexivity. Qed.
Print Assumptions F40_not_utf8.

(** ** C68 *)
(** The text of a duration means what the units say, whatever parses. *)
Theorem C68_parse_duration t d : parse_duration_str t = Ok d <-> duration units t d.
Proof. apply duration_iff. Qed.
Print Assumptions C68_parse_duration.
Example C68_duration_ex : parse_duration_str (str "12Y3D1l") = Ok (12 * year + 3 * day + 1000) /\ parse_duration_str (str "1D1Y") = Err tt /\ parse_duration_str (str "5") = Err tt.
Proof. vm_compute. repeat split. Qed.
(** Printing and parsing gives the duration back as long as the floating point quotients are
    exact. They are below 2^53 nanoseconds, 104 days, for the versions of the standard library that
    divide nanoseconds; this is not proved here. *)
Theorem C68_print_duration_partial fdiv d : d < 2 ^ 32 * year -> (forall a p, a <= d -> In p units -> fdiv a (snd p) = a / snd p) ->
  parse_duration_str (duration_as_stamp_dfmt fdiv d) = Ok d.
Proof. intros B EX. apply duration_iff. now apply dfmt_duration. Qed.
Print Assumptions C68_print_duration_partial.
Example C68_print_ex : duration_as_stamp_dfmt N.div (12 * year + 3 * day + 1000) = str "12Y3D1l" /\ duration_as_stamp_dfmt div_by_nanos (12 * year + 3 * day + 1000) = str "12Y3D1l" /\
  duration_as_stamp_dfmt div_by_secs (12 * year + 3 * day + 1000) = str "12Y3D1l" /\ duration_as_stamp_dfmt N.div 0 = str "0u".
Proof. vm_compute. repeat split. Qed.
(** They are not for long durations: a microsecond less than 545 years is printed as 545 years,
    whichever division is used; with the division of seconds 986 microseconds are printed as 985. *)
Theorem C68_print_duration_refuted :
  duration_as_stamp_dfmt div_by_nanos (545 * year - 1) = str "545Y" /\ duration_as_stamp_dfmt div_by_secs (545 * year - 1) = str "545Y" /\
  duration_as_stamp_dfmt div_by_nanos (147 * year - 1) = str "147Y" /\ duration_as_stamp_dfmt div_by_secs 986 = str "985u" /\ duration_as_stamp_dfmt div_by_nanos 986 = str "986u".
Proof. vm_compute. repeat split. Qed.
Print Assumptions C68_print_duration_refuted.
(** Stamps as text *)
Theorem C68_stamp_text t now s : (forall n, now = Some n -> n <= last_stamp) -> stamp_from_str t now = Ok s <-> stamp_text now t s.
Proof. apply stamp_str_iff. Qed.
Print Assumptions C68_stamp_text.
Example C68_stamp_ex : stamp_from_str (str "+2D") (Some 7) = Ok (2 * day + 7) /\ stamp_from_str (str "-2D") (Some 7) = Ok 0 /\ stamp_from_str (str "007") None = Ok 7 /\ stamp_from_str (str "now") None = Err tt.
Proof. vm_compute. repeat split. Qed.
(** A range printed and parsed is the same range. *)
Theorem C68_range_text now a b : a <= last_stamp -> b <= last_stamp -> range_from_str (range_display (mkRange a b)) now = Ok (mkRange a b).
Proof. apply range_roundtrip. Qed.
Print Assumptions C68_range_text.
Example C68_range_ex : range_display (mkRange 5 last_stamp) = str "5..++" /\ range_from_str (str "..5") None = Ok (mkRange last_stamp 5) /\ range_from_str (str "1..2..x") None = Ok (mkRange 1 2).
Proof. vm_compute. repeat split. Qed.
(** The range from a stamp leaves the stamp out, as the range after it does, and does not exist for
    the last one. *)
Theorem F16_asc_from s checks : s <= last_stamp -> range_asc_from checks s = range_after checks s /\
  (forall r, range_asc_from checks s = Ok r -> s < last_stamp -> sr_contains r s = false) /\ (range_asc_from true last_stamp = Panic) /\ range_asc_from false last_stamp = Ok (mkRange 0 last_stamp).
Proof.
  intros H. repeat split. intros r E L. unfold range_asc_from in E. rewrite max_last in E. destruct (N.eqb_spec s last_stamp); [lia|]. injection E as <-.
  unfold sr_contains. cbn [sr_start sr_end]. assert (s + 1 ?= s = Gt) as -> by (apply N.compare_gt_iff; lia). assert (last_stamp ?= s = Gt) as -> by (apply N.compare_gt_iff; lia). reflexivity.
Qed.
Print Assumptions F16_asc_from.
(** The time between two stamps as text; the divisions as above. *)
Theorem C68_delta_partial fdiv now other k : (1 <= k)%nat -> (forall a p, a <= N.max now other -> In p units -> fdiv a (snd p) = a / snd p) ->
  delta_text now other k (delta_stamp_p fdiv now other 9 k).
Proof. apply delta_iff. Qed.
Print Assumptions C68_delta_partial.
Example C68_delta_ex : delta_stamp_p N.div 500 (500 + 12 * year + 3 * day) 9 4 = str "+ 12Y 0M 0W 3D" /\ delta_stamp_p div_by_nanos (2 * hour + 61 * sec) 0 9 2 = str "- 2h 1m" /\
  delta_stamp_p N.div 7 7 9 2 = str "-0u".
Proof. vm_compute. repeat split. Qed.
