(** * Proofs about reading data: one call of the reader *)
From Coq Require Import List NArith ZArith Lia Bool Arith.
From Verif Require Import Bytes ModelPkt ModelAbe ModelEval ModelReader SpecReader.
Import ListNotations.
Local Open Scope N_scope.

(** The reader of the options [o] at a place in its data. *)
Definition st (o : DataReadOpts) (all : option bytes) (rest : bytes) (lim : N) (next : option bytes) : Reader :=
  mkReader next (o_bufsize o) lim (Some (mkSource all rest)) (o_repeat o) (o_eval o) (o_delim o) (mode_of o).
Definition strip (delim : option N) (got : bytes) : bytes :=
  match delim with
  | Some d => if last got (d + 1) =? d then removelast got else got
  | None => got
  end.

Lemma upto_cases d t : (exists l r, ~ In d l /\ t = l ++ d :: r /\ upto d t = l ++ [d]) \/ (~ In d t /\ upto d t = t).
Proof.
  induction t as [|b t IH]; [right; split; auto|]. cbn [upto]. destruct (N.eqb_spec b d) as [->|N].
  - left. exists [], t. repeat split. intros [].
  - destruct IH as [(l & r & A & B & C)|[A B]].
    + left. exists (b :: l), r. repeat split; [|cbn; congruence|cbn; congruence]. intros [E|E]; [congruence|auto].
    + right. split; [intros [E|E]; [congruence|auto]|congruence].
Qed.
Lemma upto_stop d l r : ~ In d l -> upto d (l ++ d :: r) = l ++ [d].
Proof.
  induction l as [|b l IH]; cbn [app upto]; intros H; [now rewrite N.eqb_refl|].
  destruct (N.eqb_spec b d) as [->|N]; [destruct H; now left|].
  rewrite IH; [reflexivity|]. intros X; apply H; now right.
Qed.
Lemma upto_all d l : ~ In d l -> upto d l = l.
Proof.
  induction l as [|b l IH]; cbn [upto]; intros H; [reflexivity|].
  destruct (N.eqb_spec b d) as [->|N]; [destruct H; now left|].
  rewrite IH; [reflexivity|]. intros X; apply H; now right.
Qed.
Lemma filter_none (d : N) l : ~ In d l -> filter (fun b => negb (b =? d)) l = l.
Proof.
  induction l as [|b l IH]; cbn [filter]; intros H; [reflexivity|].
  destruct (N.eqb_spec b d) as [->|N]; [destruct H; now left|]. cbn [negb].
  rewrite IH; [reflexivity|]. intros X; apply H; now right.
Qed.
Lemma last_in (d : N) l : ~ In d l -> last l (d + 1) =? d = false.
Proof.
  intros H. apply N.eqb_neq. induction l as [|b l IH]; [cbn; lia|].
  destruct l as [|b' l]; [cbn; intros ->; apply H; now left|].
  change (last (b :: b' :: l) (d + 1)) with (last (b' :: l) (d + 1)). apply IH. intros X; apply H; now right.
Qed.
Lemma strip_stop d l : strip (Some d) (l ++ [d]) = l.
Proof. unfold strip. rewrite last_last, N.eqb_refl. apply removelast_last. Qed.
Lemma strip_plain d l : ~ In d l -> strip (Some d) l = l.
Proof. intros H. unfold strip. now rewrite last_in. Qed.
Lemma undelimited_app delim a b : undelimited delim (a ++ b) = undelimited delim a ++ undelimited delim b.
Proof. destruct delim; cbn [undelimited]; [apply filter_app|reflexivity]. Qed.

(** What one read of the source gives. *)
Lemma read_some all rest take delim : rest <> [] -> (delim = None -> 0 < take) ->
  exists got rest', source_read (mkSource all rest) take delim = (got, mkSource all rest') /\
    rest = got ++ rest' /\ got <> [] /\ undelimited delim got = strip delim got /\
    (delim = None -> lenN got = N.min take (lenN rest)).
Proof.
  intros NE T. unfold source_read. cbn [s_rest s_all]. destruct delim as [d|].
  - set (n := N.min (take + 1) (2 ^ 64 - 1)).
    assert (P : 0 < n) by (unfold n; lia).
    assert (X : takeN n rest <> []).
    { destruct rest as [|b rest]; [congruence|]. intros E. apply (f_equal lenN) in E.
      rewrite lenN_takeN in E. rewrite lenN_cons in E. change (lenN (@nil N)) with 0 in E. lia. }
    destruct (upto_cases d (takeN n rest)) as [(l & r & A & B & C)|[A B]].
    + rewrite C. exists (l ++ [d]), (dropN (lenN (l ++ [d])) rest). split; [reflexivity|].
      assert (E : rest = (l ++ [d]) ++ (r ++ dropN n rest)).
      { rewrite <- (takeN_dropN n rest) at 1. rewrite B, <- !app_assoc. reflexivity. }
      split; [rewrite E at 2; rewrite dropN_app_exact by reflexivity; exact E|].
      split; [destruct l; discriminate|]. split; [|discriminate].
      rewrite undelimited_app, strip_stop. cbn [undelimited filter]. rewrite N.eqb_refl. cbn [negb].
      rewrite app_nil_r. now apply filter_none.
    + rewrite B. exists (takeN n rest), (dropN (lenN (takeN n rest)) rest). split; [reflexivity|].
      split.
      { rewrite lenN_takeN. destruct (N.leb_spec n (lenN rest)).
        - rewrite N.min_l by assumption. symmetry. apply takeN_dropN.
        - rewrite N.min_r by lia. rewrite takeN_all by lia. rewrite dropN_all by lia. now rewrite app_nil_r. }
      split; [assumption|]. split; [|discriminate]. rewrite strip_plain by assumption. now apply filter_none.
  - exists (takeN take rest), (dropN (lenN (takeN take rest)) rest). split; [reflexivity|]. split.
    { rewrite lenN_takeN. destruct (N.leb_spec take (lenN rest)).
      - rewrite N.min_l by assumption. symmetry. apply takeN_dropN.
      - rewrite N.min_r by lia. rewrite takeN_all by lia. rewrite dropN_all by lia. now rewrite app_nil_r. }
    split.
    { destruct rest as [|b rest]; [congruence|]. intros E. apply (f_equal lenN) in E.
      rewrite lenN_takeN in E. rewrite lenN_cons in E. change (lenN (@nil N)) with 0 in E. specialize (T eq_refl). lia. }
    split; [reflexivity|]. intros _. apply lenN_takeN.
Qed.
Lemma read_nothing all take delim : source_read (mkSource all []) take delim = ([], mkSource all []).
Proof.
  unfold source_read. cbn [s_rest s_all]. destruct delim.
  - rewrite takeN_all by apply N.le_0_l. now cbn.
  - rewrite takeN_all by apply N.le_0_l. now cbn.
Qed.
(** A line that fits is read as a whole. *)
Lemma read_line all d T l ls take : lines d T (l :: ls) -> lenN T < 2 ^ 64 - 1 -> lenN l <= take ->
  exists got T', source_read (mkSource all T) take (Some d) = (got, mkSource all T') /\
    got <> [] /\ strip (Some d) got = l /\ lines d T' ls /\ lenN T' < lenN T.
Proof.
  intros H B Q. unfold source_read. cbn [s_rest s_all]. inversion H as [|l0 NE NI E1 E2|l0 t ls0 NI H' E1 E2]; subst.
  - exists l, []. assert (X : takeN (N.min (take + 1) (2 ^ 64 - 1)) l = l) by (apply takeN_all; lia).
    rewrite X, upto_all by assumption. rewrite dropN_all by lia. split; [reflexivity|].
    split; [assumption|]. split; [now apply strip_plain|]. split; [constructor|].
    destruct l; [congruence|]. rewrite lenN_cons. change (lenN (@nil N)) with 0. lia.
  - exists (l ++ [d]), t. rewrite lenN_app, lenN_cons in B.
    assert (X : exists r, takeN (N.min (take + 1) (2 ^ 64 - 1)) (l ++ d :: t) = l ++ d :: r).
    { exists (takeN (N.min (take + 1) (2 ^ 64 - 1) - lenN l - 1) t).
      change (d :: t) with ([d] ++ t). rewrite app_assoc.
      rewrite takeN_app_ge by (rewrite lenN_app; change (lenN [d]) with 1; lia).
      rewrite <- app_assoc. rewrite lenN_app. change (lenN [d]) with 1.
      rewrite N.sub_add_distr. reflexivity. }
    destruct X as [r ->]. rewrite upto_stop by assumption. split; [|split].
    + f_equal. f_equal. change (d :: t) with ([d] ++ t). rewrite app_assoc.
      rewrite dropN_app_exact by reflexivity. reflexivity.
    + destruct l; discriminate.
    + split; [apply strip_stop|]. split; [assumption|]. rewrite lenN_app, lenN_cons. lia.
Qed.
