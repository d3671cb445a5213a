From Coq Require Import Lia.
From Verif Require Import Bytes ModelSpace ModelPkt ModelTree ModelAbe ModelFmt SpecFmt ProofFmt ModelFn ModelLns ModelHtml SpecHtml.

Definition run (s : list tok * mode) (b : bytes) : list tok * mode := fold_left step b s.
Lemma run_app s a b : run s (a ++ b) = run (run s a) b. Proof. apply fold_left_app. Qed.
Definition no (c : N) (t : bytes) : Prop := Forall (fun x => x <> c) t.

Lemma run_text t : forall out a, no 60 t -> run (out, MText a) t = (out, MText (a ++ t)).
Proof.
  induction t as [|c t IH]; intros out a F; [now rewrite app_nil_r|]. inversion F as [|? ? F1 F2]; subst.
  change (run (out, MText a) (c :: t)) with (run (step (out, MText a) c) t). unfold step. rewrite (proj2 (N.eqb_neq c 60) F1). rewrite IH by exact F2. now rewrite <- app_assoc.
Qed.
Lemma run_val q n l a t : forall out v, no q t -> run (out, MVal q n l a v) t = (out, MVal q n l a (v ++ t)).
Proof.
  induction t as [|c t IH]; intros out v F; [now rewrite app_nil_r|]. inversion F as [|? ? F1 F2]; subst.
  change (run (out, MVal q n l a v) (c :: t)) with (run (step (out, MVal q n l a v) c) t). unfold step. rewrite (proj2 (N.eqb_neq c q) F1). rewrite IH by exact F2. now rewrite <- app_assoc.
Qed.
Definition named (t : bytes) : Prop := Forall (fun c => name_char c = true) t.
Lemma name_not c : name_char c = true -> white c = false /\ c <> 62 /\ c <> 61.
Proof.
  unfold name_char, letter, white. cbn [existsb]. intros H.
  rewrite !Bool.orb_true_iff, !Bool.andb_true_iff, !N.leb_le, N.eqb_eq in H.
  split; [|lia]. rewrite !Bool.orb_false_iff, !N.eqb_neq. lia.
Qed.
Lemma run_name t : forall out n, named t -> run (out, MName n) t = (out, MName (n ++ t)).
Proof.
  induction t as [|c t IH]; intros out n F; [now rewrite app_nil_r|]. inversion F as [|? ? F1 F2]; subst. destruct (name_not c F1) as (W & G & _).
  change (run (out, MName n) (c :: t)) with (run (step (out, MName n) c) t). unfold step. rewrite W, (proj2 (N.eqb_neq c 62) G), F1. rewrite IH by exact F2. now rewrite <- app_assoc.
Qed.
Lemma run_close t : forall out n, named t -> run (out, MClose n) t = (out, MClose (n ++ t)).
Proof.
  induction t as [|c t IH]; intros out n F; [now rewrite app_nil_r|]. inversion F as [|? ? F1 F2]; subst. destruct (name_not c F1) as (W & G & _).
  change (run (out, MClose n) (c :: t)) with (run (step (out, MClose n) c) t). unfold step. rewrite (proj2 (N.eqb_neq c 62) G), F1. cbn [andb]. rewrite IH by exact F2. now rewrite <- app_assoc.
Qed.
Lemma run_attr t : forall out n l a, named t -> run (out, MAttr n l a) t = (out, MAttr n l (a ++ t)).
Proof.
  induction t as [|c t IH]; intros out n l a F; [now rewrite app_nil_r|]. inversion F as [|? ? F1 F2]; subst. destruct (name_not c F1) as (W & _ & G).
  change (run (out, MAttr n l a) (c :: t)) with (run (step (out, MAttr n l a) c) t). unfold step. rewrite (proj2 (N.eqb_neq c 61) G), F1. rewrite IH by exact F2. now rewrite <- app_assoc.
Qed.
Definition whites (t : bytes) : Prop := Forall (fun c => white c = true) t.
Lemma run_white t : forall out n l, whites t -> run (out, MBefore n l) t = (out, MBefore n l).
Proof.
  induction t as [|c t IH]; intros out n l F; [reflexivity|]. inversion F as [|? ? F1 F2]; subst.
  change (run (out, MBefore n l) (c :: t)) with (run (step (out, MBefore n l) c) t). unfold step. rewrite F1. auto.
Qed.

(** A fragment that starts and ends with a tag. *)
Definition emits (f : bytes) (k : list tok) : Prop := forall out t, run (out, MText t) f = (out ++ text t ++ k, MText []).
Lemma emits_app f k g l : emits f k -> emits g l -> emits (f ++ g) (k ++ l).
Proof. intros F G out t. rewrite run_app, F, G. cbn [text app]. now rewrite !app_assoc. Qed.
Lemma emits_text f k s g l : emits f k -> no 60 s -> emits g l -> emits (f ++ s ++ g) (k ++ text s ++ l).
Proof. intros F S G out t. rewrite !run_app, F, run_text by exact S. rewrite G. cbn [app]. now rewrite !app_assoc. Qed.

Definition attr_bytes (x : bytes * bytes * bytes) : bytes := let '(w, a, v) := x in w ++ a ++ [61; 39] ++ v ++ [39].
Definition tag (n : bytes) (l : list (bytes * bytes * bytes)) (e : bytes) : bytes := [60] ++ n ++ flat_map attr_bytes l ++ e ++ [62].
Definition endtag (n : bytes) : bytes := [60; 47] ++ n ++ [62].
Definition attr_ok (x : bytes * bytes * bytes) : Prop := let '(w, a, v) := x in w <> [] /\ whites w /\ a <> [] /\ named a /\ no 39 v.
Definition starts (n : bytes) : Prop := match n with [] => False | c :: r => letter c = true /\ named r end.

Lemma run_attrs n l : forall out acc, Forall attr_ok l -> l <> [] -> exists r, forall m, m = MName n /\ acc = [] \/ m = MAfter n acc ->
  run (out, m) (flat_map attr_bytes l) = (out, r) /\ r = MAfter n (acc ++ map (fun '(_, a, v) => (a, v)) l).
Proof.
  induction l as [|[[w a] v] l IH]; intros out acc F NE; [congruence|]. inversion F as [|? ? F1 F2]; subst. cbn [attr_ok] in F1. destruct F1 as (W0 & W & A0 & A & V). clear NE.
  assert (X : forall m, m = MName n /\ acc = [] \/ m = MAfter n acc -> run (out, m) (attr_bytes (w, a, v)) = (out, MAfter n (acc ++ [(a, v)]))).
  { intros m M. destruct w as [|w0 w]; [congruence|]. destruct a as [|a0 a]; [congruence|]. inversion W as [|? ? W1 W2]; subst. inversion A as [|? ? A1 A2]; subst.
    unfold attr_bytes. change ((w0 :: w) ++ (a0 :: a) ++ [61; 39] ++ v ++ [39]) with ([w0] ++ w ++ [a0] ++ a ++ [61; 39] ++ v ++ [39]). rewrite run_app.
    assert (Y : run (out, m) [w0] = (out, MBefore n acc)) by (destruct M as [[-> ->]| ->]; unfold run; cbn [fold_left step]; now rewrite W1). rewrite Y, run_app, run_white by exact W2.
    rewrite run_app. destruct (name_not a0 A1) as (NW & NG & _). assert (Z : run (out, MBefore n acc) [a0] = (out, MAttr n acc [a0])) by (unfold run; cbn [fold_left step]; now rewrite NW, (proj2 (N.eqb_neq a0 62) NG), A1).
    rewrite Z, run_app, run_attr by exact A2. rewrite run_app. cbn [app]. change (run (out, MAttr n acc (a0 :: a)) [61; 39]) with (out, MVal 39 n acc (a0 :: a) []).
    rewrite run_app, run_val by exact V. reflexivity. }
  cbn [flat_map]. destruct l as [|x l].
  - eexists. intros m M. rewrite run_app, (X m M). cbn [flat_map map]. split; reflexivity.
  - destruct (IH out (acc ++ [(a, v)]) F2 ltac:(discriminate)) as (r & R). exists r. intros m M. rewrite run_app, (X m M). destruct (R _ (or_intror eq_refl)) as [R1 R2]. split; [exact R1|].
    rewrite R2, <- app_assoc. reflexivity.
Qed.
Lemma emits_tag n l e : starts n -> Forall attr_ok l -> whites e -> l <> [] -> emits (tag n l e) [Open n (map (fun '(_, a, v) => (a, v)) l)].
Proof.
  intros S F W NE out t. destruct n as [|c n]; [destruct S|]. destruct S as [S1 S2]. unfold tag. cbn [app]. change (60 :: c :: n ++ flat_map attr_bytes l ++ e ++ [62]) with ([60; c] ++ n ++ flat_map attr_bytes l ++ e ++ [62]).
  rewrite run_app. assert (X : run (out, MText t) [60; c] = (out ++ text t, MName [c])).
  { change (run (out, MText t) [60; c]) with (step (out ++ text t, MLt) c). unfold step. destruct (N.eqb_spec c 47) as [->|]; [discriminate S1|]. now rewrite S1. }
  rewrite X, run_app, run_name by exact S2. rewrite run_app. destruct (run_attrs ([c] ++ n) l (out ++ text t) [] F NE) as (r & R). destruct (R _ (or_introl (conj eq_refl eq_refl))) as [R1 R2].
  rewrite R1, R2. cbn [app]. rewrite run_app. destruct e as [|e0 e].
  - cbn [run fold_left]. unfold run. cbn [fold_left step]. change (white 62) with false. change (62 =? 62) with true. cbn iota. now rewrite <- app_assoc.
  - inversion W as [|? ? W1 W2]; subst. change (run (out ++ text t, MAfter (c :: n) (map (fun '(_, a, v) => (a, v)) l)) (e0 :: e)) with (run (step (out ++ text t, MAfter (c :: n) (map (fun '(_, a, v) => (a, v)) l)) e0) e).
    unfold step at 1. rewrite W1, run_white by exact W2. unfold run. cbn [fold_left step]. change (white 62) with false. change (62 =? 62) with true. cbn iota. now rewrite <- app_assoc.
Qed.
Lemma emits_end n : starts n -> emits (endtag n) [Close n].
Proof.
  intros S out t. destruct n as [|c n]; [destruct S|]. destruct S as [S1 S2]. unfold endtag. rewrite run_app. change (run (out, MText t) [60; 47]) with (out ++ text t, MClose []).
  rewrite run_app, run_close. 2:{ constructor; [unfold name_char; now rewrite S1|exact S2]. }
  unfold run. cbn [fold_left step]. change (62 =? 62) with true. cbn [andb app beqb negb]. now rewrite <- app_assoc.
Qed.
(** one space before each attribute *)
Definition plain (l : list (bytes * bytes)) : list (bytes * bytes * bytes) := map (fun '(a, v) => ([32], a, v)) l.
Definition avs_ok (l : list (bytes * bytes)) : Prop := Forall (fun x => fst x <> [] /\ named (fst x) /\ no 39 (snd x)) l.
Lemma plain_map l : map (fun '(_, a, v) => (a, v)) (plain l) = l.
Proof. unfold plain. rewrite map_map. rewrite <- (map_id l) at 2. apply map_ext. now intros [a v]. Qed.
Lemma plain_ok l : avs_ok l -> Forall attr_ok (plain l).
Proof.
  intros F. unfold plain. apply Forall_map. eapply Forall_impl; [|exact F]. intros [a v] (A & B & D). cbn [attr_ok fst snd] in *. split; [discriminate|]. split; [repeat constructor|]. auto.
Qed.
Lemma emits_elem_w n l e f k av : starts n -> Forall attr_ok l -> whites e -> l <> [] -> emits f k -> av = map (fun '(_, a, v) => (a, v)) l -> emits (tag n l e ++ f ++ endtag n) (elem n av k).
Proof. intros S A W NE F ->. unfold elem. exact (emits_app _ [_] _ _ (emits_tag n l e S A W NE) (emits_app _ _ _ _ F (emits_end n S))). Qed.
Lemma emits_elem n l f k : starts n -> avs_ok l -> l <> [] -> emits f k -> emits (tag n (plain l) [] ++ f ++ endtag n) (elem n l k).
Proof. intros S A NE F. apply emits_elem_w; auto; [now apply plain_ok|constructor|destruct l; [congruence|discriminate]|now rewrite plain_map]. Qed.
Lemma emits_leaf_w n l e t av : starts n -> Forall attr_ok l -> whites e -> l <> [] -> no 60 t -> av = map (fun '(_, a, v) => (a, v)) l -> emits (tag n l e ++ t ++ endtag n) (elem n av (text t)).
Proof. intros S A W NE F ->. unfold elem. exact (emits_text _ [_] _ _ _ (emits_tag n l e S A W NE) F (emits_end n S)). Qed.
Lemma emits_leaf n l t : starts n -> avs_ok l -> l <> [] -> no 60 t -> emits (tag n (plain l) [] ++ t ++ endtag n) (elem n l (text t)).
Proof. intros S A NE F. apply emits_leaf_w; auto; [now apply plain_ok|constructor|destruct l; [congruence|discriminate]|now rewrite plain_map]. Qed.

(** ** The characters of the parts *)
Lemma b64_char_range d : d < 64 -> let c := b64_char true d in 65 <= c <= 90 \/ 97 <= c <= 122 \/ 48 <= c <= 57 \/ c = 45 \/ c = 95.
Proof.
  intros H. unfold b64_char. destruct (N.ltb_spec d 26); [left; lia|]. destruct (N.ltb_spec d 52); [right; left; lia|]. destruct (N.ltb_spec d 62); [right; right; left; lia|].
  destruct (N.eqb_spec d 62); cbn iota; lia.
Qed.
Lemma b64_no c b : bytes_ok b -> c < 45 \/ 57 < c /\ c < 65 \/ c = 46 -> no c (b64_display b).
Proof.
  intros O L. apply Forall_forall. intros x I E. subst x. destruct (base64_chars b c O I) as (d & D & ->). pose proof (b64_char_range d D). cbn in H. lia.
Qed.
Lemma dec_no c n : c < 48 \/ 57 < c -> no c (to_string n).
Proof. intros L. apply Forall_forall. intros x I E. subst x. apply to_string_digits in I. lia. Qed.
Lemma dec_named n : named (to_string n).
Proof. apply Forall_forall. intros x I. apply to_string_digits in I. unfold name_char. apply Bool.orb_true_iff. left. apply Bool.orb_true_iff. right. apply Bool.andb_true_iff. rewrite !N.leb_le. exact I. Qed.
Lemma no_app c a b : no c (a ++ b) <-> no c a /\ no c b.
Proof. apply Forall_app. Qed.
Lemma no_dec c t : forallb (fun x => negb (x =? c)) t = true -> no c t.
Proof. intros H. apply Forall_forall. intros x I. rewrite forallb_forall in H. apply H in I. now apply N.eqb_neq, Bool.negb_true_iff. Qed.
Lemma quoted_no t : no 60 (quoted t) /\ no 62 (quoted t).
Proof.
  induction t as [|c t [A B]]; [split; constructor|]. change (quoted (c :: t)) with ((if c =? 38 then str "&amp" else if c =? 60 then str "&lt" else if c =? 62 then str "&gt" else [c]) ++ quoted t).
  rewrite !no_app. assert (X : no 60 (if c =? 38 then str "&amp" else if c =? 60 then str "&lt" else if c =? 62 then str "&gt" else [c]) /\ no 62 (if c =? 38 then str "&amp" else if c =? 60 then str "&lt" else if c =? 62 then str "&gt" else [c])).
  { destruct (N.eqb_spec c 38); [split; apply no_dec; reflexivity|]. destruct (N.eqb_spec c 60); [split; apply no_dec; reflexivity|]. destruct (N.eqb_spec c 62); [split; apply no_dec; reflexivity|]. split; constructor; auto; constructor. }
  tauto.
Qed.
Lemma escape_quoted t : escape_html t = quoted t.
Proof. reflexivity. Qed.
Lemma takeN_Forall {A} (P : A -> Prop) n l : Forall P l -> Forall P (takeN n l).
Proof. unfold takeN. intros F. apply Forall_forall. intros x I. rewrite Forall_forall in F. apply F. rewrite <- (firstn_skipn (N.to_nat n) l). apply in_or_app. now left. Qed.
Lemma dropN_Forall {A} (P : A -> Prop) n l : Forall P l -> Forall P (dropN n l).
Proof. unfold dropN. intros F. apply Forall_forall. intros x I. rewrite Forall_forall in F. apply F. rewrite <- (firstn_skipn (N.to_nat n) l). apply in_or_app. now right. Qed.
Lemma mini_no c b : bytes_ok b -> c < 45 \/ 58 < c /\ c < 65 -> no c (mini_b64 b).
Proof.
  intros O L. assert (B : no c (base64 b)) by (apply (b64_no c b O); lia). unfold mini_b64. destruct (lenN b <=? 12); [exact B|].
  unfold no in *. rewrite !Forall_app. split; [now apply takeN_Forall|]. split; [apply Forall_forall; intros x I; apply repeat_spec in I; lia|]. split; [destruct (negb _); repeat constructor; lia|now apply dropN_Forall].
Qed.
Lemma label_no public test c b : bytes_ok b -> c = 60 \/ c = 38 -> no c (label public test b).
Proof.
  intros O L. unfold label. destruct (beqb b _); [apply no_dec; destruct L as [-> | ->]; reflexivity|]. destruct (beqb b public); [apply no_dec; destruct L as [-> | ->]; reflexivity|].
  destruct (beqb b test); [apply no_dec; destruct L as [-> | ->]; reflexivity|]. apply mini_no; [exact O|lia].
Qed.
