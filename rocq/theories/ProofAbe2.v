(** Proofs about ABE text: expressions. *)
From Verif Require Import Bytes ModelAbe SpecAbe ProofAbe.
Opaque N.land.

(** A text as a list of bytes and delimiters. *)
Definition tchar : Type := N + CtrChar.
Inductive chars : bytes -> list tchar -> Prop :=
| chars_nil : chars [] []
| chars_byte u v t cs : reads1 u v -> chars t cs -> chars (u ++ t) (inl v :: cs)
| chars_ctr k t cs : k <> Newline -> chars t cs -> chars (as_char k :: t) (inr k :: cs).
Fixpoint run (cs : list tchar) (depth : N) (r : list ABTok) (b : bytes) : outcome ASTParseError (list ABE) :=
  match cs with
  | [] => finish depth r b
  | inl v :: cs' => run cs' depth r (b ++ [v])
  | inr k :: cs' => match bracket_depth k depth with
                    | None => Err EUnmatchedClose
                    | Some d => run cs' d (flush r b ++ [TCtr k]) []
                    end
  end.
Lemma std_ctr k rest idx : k <> Newline -> next_byte (as_char k :: rest) idx STD_PLAIN_CSET STD_ERR_CSET = Ok (BCtr k rest).
Proof. intros K. now destruct k. Qed.
Lemma abe_loop_chars len : forall f t d r b l, abe_loop false f len t d r b = Ok l -> exists cs, chars t cs /\ run cs d r b = Ok l.
Proof.
  induction f as [|f IH]; [discriminate|]. intros t d r b l. cbn [abe_loop].
  destruct (next_byte t _ _ _) as [nb|e| |] eqn:N; try discriminate; [|destruct e; discriminate].
  pose proof (next_byte_sound _ _ _ _ _ N) as S. destruct S as [|u v rest U|k rest E P|k rest E P].
  - exists []. split; [constructor|assumption].
  - intros H. apply IH in H as (cs & C & R). exists (inl v :: cs). split; [now constructor|assumption].
  - exfalso. apply P. reflexivity.
  - destruct (bracket_depth k d) as [d'|] eqn:D; [|discriminate]. intros H. apply IH in H as (cs & C & R).
    exists (inr k :: cs). split; [constructor; [|assumption]|].
    + intros ->. now apply N.eqb_neq in E.
    + cbn. now rewrite D.
Qed.
Lemma chars_abe_loop lenient len t cs : chars t cs -> forall f d r b l, (List.length t < f)%nat -> run cs d r b = Ok l ->
  abe_loop lenient f len t d r b = Ok l.
Proof.
  induction 1 as [|u v t cs U C IH|k t cs K C IH]; intros f d r b l F R; destruct f as [|f]; try lia; cbn [abe_loop].
  - exact R.
  - rewrite (reads1_next u v) by assumption. apply IH; [|exact R]. rewrite app_length in F. pose proof (reads1_len u v U). lia.
  - rewrite std_ctr by assumption. cbn in R. destruct (bracket_depth k d); [|discriminate]. apply IH; [cbn in F; lia|assumption].
Qed.
Lemma strict_chars t l : parse_abe_strict t = Ok l <-> exists cs, chars t cs /\ run cs 0 [] [] = Ok l.
Proof.
  split; [apply abe_loop_chars|]. intros (cs & C & R). apply chars_abe_loop with cs; [assumption|lia|assumption].
Qed.
Lemma lenient_agrees t l : parse_abe_strict t = Ok l -> parse_abe_unencoded t = Ok l.
Proof. intros H. apply strict_chars in H as (cs & C & R). apply chars_abe_loop with cs; [assumption|lia|assumption]. Qed.
Lemma chars_app t1 cs1 t2 cs2 : chars t1 cs1 -> chars t2 cs2 -> chars (t1 ++ t2) (cs1 ++ cs2).
Proof. induction 1; intros; [assumption|rewrite <- app_assoc|]; cbn; constructor; auto. Qed.
Lemma chars_split cs1 cs2 t : chars t (cs1 ++ cs2) -> exists t1 t2, t = t1 ++ t2 /\ chars t1 cs1 /\ chars t2 cs2.
Proof.
  revert t. induction cs1 as [|c cs1 IH]; intros t H; [now exists [], t; repeat split; [constructor|]|].
  inversion H; subst.
  - destruct (IH _ H4) as (a & b & -> & A & B). exists (u ++ a), b. rewrite app_assoc. repeat split; [now constructor|assumption].
  - destruct (IH _ H4) as (a & b & -> & A & B). exists (as_char k :: a), b. repeat split; [now constructor|assumption].
Qed.
Lemma chars_bytes t b : chars t (map inl b) <-> reads t b.
Proof.
  split.
  - revert t. induction b as [|v b IH]; intros t H; inversion H; subst; [constructor|]. constructor; auto.
  - induction 1; cbn; constructor; auto.
Qed.

(** Bytes joined into tokens. *)
Fixpoint group (b : bytes) (cs : list tchar) : list ABTok :=
  match cs with
  | [] => flush [] b
  | inl v :: cs' => group (b ++ [v]) cs'
  | inr k :: cs' => flush [] b ++ TCtr k :: group [] cs'
  end.
Definition ungroup (ts : list ABTok) : list tchar := flat_map (fun t => match t with TBytes b => map inl b | TCtr k => [inr k] end) ts.
Definition not_tbytes (ts : list ABTok) : Prop := match ts with TBytes _ :: _ => False | _ => True end.
Fixpoint sep (ts : list ABTok) : Prop :=
  match ts with [] => True | TBytes b :: r => b <> [] /\ not_tbytes r /\ sep r | TCtr _ :: r => sep r end.
Fixpoint bal (d : N) (ts : list ABTok) : Prop :=
  match ts with
  | [] => d = 0
  | TBytes _ :: r => bal d r
  | TCtr k :: r => match bracket_depth k d with Some d' => bal d' r | None => False end
  end.
Lemma flush_app r b : flush r b = r ++ flush [] b.
Proof. destruct b; cbn; [now rewrite app_nil_r|reflexivity]. Qed.
Lemma run_tokens cs : forall d r b l, run cs d r b = Ok l <->
  bal d (group b cs) /\ exists rest, collect (S (List.length (r ++ group b cs))) (r ++ group b cs) = Ok (l, rest).
Proof.
  induction cs as [|[v|k] cs IH]; intros d r b l; cbn [run group].
  - unfold finish. rewrite (flush_app r b). assert (B : bal d (flush [] b) <-> d = 0) by now destruct b.
    rewrite B. destruct (N.eqb_spec d 0) as [E|E]; cbn [negb].
    + destruct (collect _ (r ++ flush [] b)) as [[l' rest]|e| |]; cbn [obind]; split; try discriminate; try (intros [_ [rest' H]]; discriminate).
      * intros [= ->]. split; [assumption|now exists rest].
      * intros [_ [rest' [= -> _]]]. reflexivity.
    + split; [discriminate|intros [H _]; contradiction].
  - apply IH.
  - assert (B : bal d (flush [] b ++ TCtr k :: group [] cs) <-> match bracket_depth k d with Some d' => bal d' (group [] cs) | None => False end) by now destruct b.
    rewrite B. destruct (bracket_depth k d) as [d'|]; [|split; [discriminate|intros [[] _]]].
    rewrite IH. rewrite (flush_app r b). rewrite <- !app_assoc. cbn [app]. reflexivity.
Qed.
Lemma group_sep cs : forall b, sep (group b cs).
Proof.
  induction cs as [|[v|k] cs IH]; intros b; cbn [group]; [destruct b; cbn; auto|apply IH|].
  - repeat split; try discriminate; auto.
  - destruct b; cbn; repeat split; try discriminate; auto.
Qed.
Lemma group_ungroup cs : forall b, ungroup (group b cs) = map inl b ++ cs.
Proof.
  induction cs as [|[v|k] cs IH]; intros b; cbn [group].
  - destruct b; cbn; [reflexivity|]. reflexivity.
  - rewrite IH, map_app, <- app_assoc. reflexivity.
  - destruct b as [|x b].
    + cbn [flush app]. change (inr k :: ungroup (group [] cs) = map inl [] ++ inr k :: cs). now rewrite IH.
    + cbn [flush app ungroup flat_map]. change (flat_map _ (group [] cs)) with (ungroup (group [] cs)). rewrite IH. reflexivity.
Qed.
Lemma ungroup_group ts : sep ts -> forall b, (b = [] \/ not_tbytes ts) -> group b (ungroup ts) = flush [] b ++ ts.
Proof.
  induction ts as [|[b0|k] ts IH]; intros S b D.
  - cbn. now rewrite app_nil_r.
  - destruct D as [->|[]]. destruct S as (NE & NT & S). cbn [ungroup flat_map].
    change (flat_map _ ts) with (ungroup ts).
    assert (forall x y, group x (map inl y ++ ungroup ts) = group (x ++ y) (ungroup ts)) as G.
    { intros x y. revert x. induction y as [|v y IHy]; intros x; [now rewrite app_nil_r|]. cbn. rewrite IHy, <- app_assoc. reflexivity. }
    rewrite G. cbn [app]. rewrite IH by auto. now destruct b0.
  - cbn [ungroup flat_map app group]. f_equal. f_equal. apply (IH S []). now left.
Qed.

(** The grammar of tokens. *)
Inductive tden : list ABTok -> list ABE -> Prop :=
| tden_nil : tden [] []
| tden_colon ts l : tden ts l -> tden (TCtr Colon :: ts) (ACtr CColon :: l)
| tden_slash ts l : tden ts l -> tden (TCtr ForwardSlash :: ts) (ACtr CFSlash :: l)
| tden_lst ts1 ts2 l1 l2 : tden ts1 l1 -> tden ts2 l2 -> tden (TCtr OpenBracket :: ts1 ++ TCtr CloseBracket :: ts2) (ALst l1 :: l2)
| tden_bytes b ts l : b <> [] -> not_tbytes ts -> tden ts l -> tden (TBytes b :: ts) (ABytes b :: l).
Definition no_newline (ts : list ABTok) : Prop := Forall (fun t => t <> TCtr Newline) ts.
Lemma take_bytes_not r : not_tbytes r -> take_bytes r = ([], r).
Proof. destruct r as [|[b|k] r]; [reflexivity|intros []|reflexivity]. Qed.
Lemma sep_app a b : sep (a ++ b) -> sep a /\ sep b.
Proof.
  induction a as [|[x|k] a IH]; cbn; [auto| |apply IH]. intros (NE & NT & S). apply IH in S as [S1 S2].
  repeat split; try assumption. destruct a; [trivial|exact NT].
Qed.
Lemma collect_bal : forall f ts d, (List.length ts < f)%nat -> bal d ts -> sep ts -> no_newline ts ->
  exists l rest ts1, collect f ts = Ok (l, rest) /\ tden ts1 l /\
    ((d = 0 /\ ts = ts1 /\ rest = []) \/ (d <> 0 /\ ts = ts1 ++ TCtr CloseBracket :: rest /\ bal (d - 1) rest)).
Proof.
  induction f as [|f IH]; [lia|]. intros ts d F B S NN. destruct ts as [|[b|k] ts].
  - exists [], [], []. cbn in *. split; [reflexivity|]. split; [constructor|]. left. auto.
  - cbn in S. destruct S as (NE & NT & S). inversion NN as [|? ? _ NN']; subst.
    destruct (IH ts d) as (l & rest & ts1 & C & T & H); [cbn in F; lia|exact B|assumption|assumption|].
    exists (ABytes b :: l), rest, (TBytes b :: ts1). cbn [collect]. rewrite take_bytes_not by assumption. rewrite C. cbn.
    rewrite app_nil_r. split; [reflexivity|]. split.
    + constructor; [assumption| |assumption]. destruct H as [(-> & <- & ->)|(_ & -> & _)]; [assumption|]. now destruct ts1.
    + destruct H as [(-> & <- & ->)|(D & -> & H)]; [left; auto|right; auto].
  - inversion NN as [|? ? NL NN']; subst.
    assert (simple : forall c ts' (T1 : forall a l, tden a l -> tden (TCtr k :: a) (ACtr c :: l)), ts' = ts -> bal d ts ->
      exists l rest ts1, obind (collect f ts) (fun '(l, r') => Ok (ACtr c :: l, r')) = Ok (l, rest) /\ tden ts1 l /\
        ((d = 0 /\ TCtr k :: ts = ts1 /\ rest = []) \/ (d <> 0 /\ TCtr k :: ts = ts1 ++ TCtr CloseBracket :: rest /\ bal (d - 1) rest))).
    { intros c ts' T1 _ B'. destruct (IH ts d) as (l & rest & ts1 & C & T & H); [cbn in F; lia|assumption..|].
      exists (ACtr c :: l), rest, (TCtr k :: ts1). rewrite C. cbn. split; [reflexivity|]. split; [now apply T1|].
      destruct H as [(-> & <- & ->)|(D & -> & H)]; [left; auto|right; auto]. }
    destruct k; cbn [collect].
    + apply (simple CFSlash ts); [apply tden_slash|reflexivity|exact B].
    + apply (simple CColon ts); [apply tden_colon|reflexivity|exact B].
    + now contradiction NL.
    + cbn in B. destruct (IH ts (d + 1)) as (l1 & r1 & ts1 & C & T & H); [cbn in F; lia|assumption..|].
      destruct H as [(D & _ & _)|(_ & E & B1)]; [lia|]. replace (d + 1 - 1) with d in B1 by lia.
      assert (S1 : sep r1). { cbn in S. rewrite E in S. apply sep_app in S as [_ S]. exact S. }
      assert (N1 : no_newline r1). { rewrite E in NN'. apply Forall_app in NN' as [_ N']. now inversion N'. }
      destruct (IH r1 d) as (l2 & r2 & ts2 & C2 & T2 & H2).
      { apply (f_equal (@List.length _)) in E. rewrite app_length in E. cbn in E, F. lia. }
      { assumption. } { assumption. } { assumption. }
      exists (ALst l1 :: l2), r2, (TCtr OpenBracket :: ts1 ++ TCtr CloseBracket :: ts2).
      rewrite C. cbn [obind]. rewrite C2. cbn [obind]. split; [reflexivity|]. split; [now constructor|].
      destruct H2 as [(-> & <- & ->)|(D & -> & H2)]; [left; subst; auto|right].
      split; [assumption|]. split; [|assumption]. rewrite E. cbn. rewrite <- app_assoc. reflexivity.
    + cbn in B. destruct (N.eqb_spec d 0) as [?|D]; [contradiction|].
      exists [], ts, []. split; [reflexivity|]. split; [constructor|]. right. auto.
Qed.
Lemma tden_sep ts l : tden ts l -> sep ts.
Proof.
  induction 1; cbn; auto.
  clear H H0. revert IHtden1. generalize ts1. intros a Sa. induction a as [|[x|k] a IH]; cbn in *; [assumption| |auto].
  destruct Sa as (? & ? & ?). repeat split; [assumption| |auto]. destruct a; [exact I|assumption].
Qed.
Lemma tden_bal ts l : tden ts l -> forall d r, bal d (ts ++ r) <-> bal d r.
Proof.
  induction 1 as [|ts l H IH|ts l H IH|ts1 ts2 l1 l2 H1 IH1 H2 IH2|b ts l NE NT H IH]; intros d r; cbn; try apply IH; [reflexivity|].
  rewrite <- app_assoc. rewrite IH1. cbn [app bal bracket_depth]. destruct (N.eqb_spec (d + 1) 0); [lia|].
  replace (d + 1 - 1) with d by lia. apply IH2.
Qed.
Lemma tden_newline ts l : tden ts l -> no_newline ts.
Proof.
  induction 1; [constructor|constructor; [discriminate|assumption]..| |constructor; [discriminate|assumption]].
  constructor; [discriminate|]. apply Forall_app. split; [assumption|]. constructor; [discriminate|assumption].
Qed.
(** Tokens have one meaning: [collect] finds it. *)
Lemma tden_collect ts l : tden ts l -> forall f, (List.length ts < f)%nat -> forall tail, (tail = [] \/ exists r, tail = TCtr CloseBracket :: r) ->
  (List.length (ts ++ tail) < f)%nat -> collect f (ts ++ tail) = Ok (l, List.tl tail).
Proof.
  induction 1 as [|ts l H IH|ts l H IH|ts1 ts2 l1 l2 H1 IH1 H2 IH2|b ts l NE NT H IH]; intros f F tail T FT; (destruct f as [|f]; [cbn in F; lia|]).
  - destruct T as [->|[r ->]]; reflexivity.
  - cbn [app collect]. rewrite IH; [reflexivity|cbn in F; lia|assumption|cbn in FT; lia].
  - cbn [app collect]. rewrite IH; [reflexivity|cbn in F; lia|assumption|cbn in FT; lia].
  - cbn [app collect]. cbn [app List.length] in F, FT. rewrite ?app_length in F, FT. cbn [app List.length] in F, FT. rewrite ?app_length in FT. cbn [List.length] in FT.
    rewrite <- app_assoc. cbn [app].
    rewrite (IH1 f); [|lia|right; eexists; reflexivity|rewrite app_length; cbn [List.length]; rewrite app_length; lia]. cbn [obind tl].
    rewrite (IH2 f); [reflexivity|lia|assumption|rewrite app_length; lia].
  - cbn [app collect]. rewrite take_bytes_not.
    + rewrite IH; [cbn; now rewrite app_nil_r|cbn in F; lia|assumption|cbn in FT; lia].
    + destruct ts as [|[x|k] ts]; [|exact NT|exact I]. destruct T as [->|[r ->]]; exact I.
Qed.
Lemma run_tden cs l : Forall (fun c => c <> inr Newline) cs -> (run cs 0 [] [] = Ok l <-> tden (group [] cs) l).
Proof.
  intros NL. rewrite run_tokens. cbn [app]. split.
  - intros [B (rest & C)].
    assert (no_newline (group [] cs)) as NN.
    { assert (NU : Forall (fun c => c <> inr Newline) (ungroup (group [] cs))) by (rewrite group_ungroup; exact NL).
      clear B C NL. revert NU. generalize (group [] cs). intros ts. induction ts as [|[b|k] ts IH]; intros NL; [constructor| |].
      - cbn in NL. apply Forall_app in NL as [_ NL]. constructor; [discriminate|exact (IH NL)].
      - cbn in NL. inversion NL as [|? ? N1 N2]; subst. constructor; [congruence|exact (IH N2)]. }
    destruct (collect_bal (S (List.length (group [] cs))) (group [] cs) 0) as (l' & rest' & ts1 & C' & T & H);
      [lia|assumption|apply group_sep|assumption|].
    destruct H as [(_ & <- & ->)|(D & _)]; [|lia]. rewrite C in C'. injection C' as -> ->. assumption.
  - intros T. split.
    + rewrite <- (app_nil_r (group [] cs)). apply (tden_bal _ _ T). reflexivity.
    + exists []. rewrite <- (app_nil_r (group [] cs)) at 2. rewrite (tden_collect _ _ T); [reflexivity|lia|now left|rewrite app_nil_r; lia].
Qed.
Lemma chars_newline t cs : chars t cs -> Forall (fun c => c <> inr Newline) cs.
Proof. induction 1; constructor; try assumption; congruence. Qed.

(** Texts and tokens. *)
Lemma not_bytes_tokens ts l : tden ts l -> not_bytes l <-> not_tbytes ts.
Proof. intros []; cbn; tauto. Qed.
Lemma denotes_tokens t l : denotes t l -> exists ts, chars t (ungroup ts) /\ tden ts l.
Proof.
  induction 1 as [|c t l D (ts & C & T)|t1 t2 l1 l2 D1 (ts1 & C1 & T1) D2 (ts2 & C2 & T2)|t1 b t2 l NE R NB D (ts & C & T)].
  - exists []. split; constructor.
  - exists (TCtr (match c with CColon => Colon | CFSlash => ForwardSlash end) :: ts). destruct c; cbn.
    + split; [apply (chars_ctr Colon); [discriminate|assumption]|now constructor].
    + split; [apply (chars_ctr ForwardSlash); [discriminate|assumption]|now constructor].
  - exists (TCtr OpenBracket :: ts1 ++ TCtr CloseBracket :: ts2). split; [|now constructor].
    cbn. apply (chars_ctr OpenBracket); [discriminate|]. unfold ungroup. rewrite flat_map_app. apply chars_app; [assumption|].
    cbn. now apply (chars_ctr CloseBracket).
  - exists (TBytes b :: ts). split; [|constructor; [assumption|now apply (not_bytes_tokens ts l)|assumption]].
    cbn. apply chars_app; [now apply chars_bytes|assumption].
Qed.
Lemma tokens_denotes ts l : tden ts l -> forall t, chars t (ungroup ts) -> denotes t l.
Proof.
  induction 1 as [|ts l H IH|ts l H IH|ts1 ts2 l1 l2 H1 IH1 H2 IH2|b ts l NE NT H IH]; intros t C.
  - inversion C; subst. constructor.
  - cbn in C. inversion C; subst. apply (denotes_ctr CColon). auto.
  - cbn in C. inversion C; subst. apply (denotes_ctr CFSlash). auto.
  - cbn in C. inversion C as [| |k t' cs K C']; subst. unfold ungroup in C'. rewrite flat_map_app in C'.
    apply chars_split in C' as (t1 & t2 & -> & C1 & C2). cbn in C2. inversion C2; subst. cbn. apply denotes_lst; auto.
  - cbn in C. apply chars_split in C as (t1 & t2 & -> & C1 & C2). apply chars_bytes in C1.
    apply denotes_bytes; auto. now apply (not_bytes_tokens ts l).
Qed.
Theorem parse_denotes t l : parse_abe_strict t = Ok l <-> denotes t l.
Proof.
  rewrite strict_chars. split.
  - intros (cs & C & R). apply run_tden in R; [|now apply chars_newline with t].
    apply (tokens_denotes _ _ R). rewrite group_ungroup. assumption.
  - intros D. apply denotes_tokens in D as (ts & C & T). exists (ungroup ts). split; [assumption|].
    apply run_tden; [now apply chars_newline with t|]. rewrite (ungroup_group ts (tden_sep _ _ T)) by now left. exact T.
Qed.
Lemma denotes_normal t l : denotes t l -> normal l.
Proof. induction 1; constructor; auto. now apply reads_bytes_ok with t1. Qed.

(** Printing any expression. *)
Lemma abe_ind2 (P : ABE -> Prop) : (forall c, P (ACtr c)) -> (forall b, P (ABytes b)) -> (forall l, Forall P l -> P (ALst l)) -> forall e, P e.
Proof.
  intros H1 H2 H3. fix IH 1. intros [c|b|l]; [apply H1|apply H2|apply H3]. induction l; constructor; [apply IH|assumption].
Qed.
Lemma abes_ok_lst l : abe_ok (ALst l) <-> Forall abe_ok l.
Proof. cbn. induction l as [|x l IH]; split; intros H; try constructor; try tauto; inversion H; subst; try tauto. Qed.
(** [p] in front of a text for [l]. *)
Lemma join_denotes e t l : denotes t l -> abe_ok e -> (forall l', e = ALst l' -> denotes (flat_map print1 l') (norm l')) ->
  denotes (print1 e ++ t) (join_bytes (norm1 e) l).
Proof.
  intros D O L. destruct e as [c|b|l'].
  - cbn. destruct c; [apply (denotes_ctr CColon)|apply (denotes_ctr CFSlash)]; assumption.
  - destruct b as [|x b]; [exact D|]. cbn [print1 norm1]. cbn in O.
    assert (R : reads (flat_map escape_default (x :: b)) (x :: b)) by now apply escape_all_reads.
    destruct l as [|[c|b'|l'] l]; try (apply denotes_bytes; [discriminate|assumption|exact I|assumption]).
    cbn [join_bytes]. inversion D as [| | |t1 b0 t2 l0 NE R0 NB D0]; subst. rewrite app_assoc.
    apply denotes_bytes; [discriminate|now apply reads_app|assumption..].
  - cbn [print1 norm1 join_bytes]. rewrite <- app_comm_cons, <- app_assoc. cbn [app]. apply denotes_lst; [|assumption]. now apply L.
Qed.
Lemma print_denotes l : abes_ok l -> denotes (print_abe l) (norm l).
Proof.
  assert (A : forall l, Forall (fun e => forall l', e = ALst l' -> abe_ok e -> denotes (flat_map print1 l') (norm l')) l -> Forall abe_ok l ->
    denotes (flat_map print1 l) (norm l)).
  { induction 1 as [|e l0 H F IH]; intros O; [constructor|]. inversion O; subst. cbn [flat_map].
    unfold norm. cbn [fold_right]. apply join_denotes; [now apply IH|assumption|]. intros l' E. now apply H. }
  intros O. apply A; [|assumption]. clear O. induction l as [|e l IH]; constructor; [|assumption]. clear IH l.
  induction e as [c|b|l F] using abe_ind2; intros l' E; [discriminate..|]. injection E as <-. intros O.
  apply A; [exact F|now apply abes_ok_lst].
Qed.
Lemma join_normal e l : not_bytes l \/ (forall b, e <> ABytes b) -> e <> ABytes [] -> join_bytes e l = e :: l.
Proof.
  intros D NE. destruct e as [c|b|l']; try (now destruct l as [|[]]). destruct b as [|x b]; [contradiction|].
  destruct D as [D|D]; [|now contradiction (D (x :: b))]. destruct l as [|[]]; [reflexivity|reflexivity|contradiction|reflexivity].
Qed.
Lemma norm_normal l : normal l -> norm l = l.
Proof.
  induction 1 as [|c l H IH|l1 l2 H1 IH1 H2 IH2|b l NE O NB H IH]; [reflexivity| | |]; unfold norm in *; cbn [fold_right].
  - rewrite IH. cbn [norm1]. apply join_normal; [right|]; discriminate.
  - rewrite IH2. cbn [norm1]. rewrite IH1. apply join_normal; [right|]; discriminate.
  - rewrite IH. cbn [norm1]. apply join_normal; [now left|congruence].
Qed.
Lemma normal_ok l : normal l -> abes_ok l.
Proof. induction 1; constructor; auto. - exact I. - now apply abes_ok_lst. Qed.
Lemma abe_loop_total lenient len : forall f t d r b, (List.length t < f)%nat -> no_newline r -> 
  abe_loop lenient f len t d r b <> OutOfFuel /\ abe_loop lenient f len t d r b <> Panic.
Proof.
  assert (NF : forall r b, no_newline r -> no_newline (flush r b)).
  { intros r b H. destruct b; [assumption|]. cbn. apply Forall_app. split; [assumption|]. constructor; [discriminate|constructor]. }
  assert (CT : forall f ts, (List.length ts < f)%nat -> no_newline ts -> (exists l r, collect f ts = Ok (l, r) /\ (List.length r <= List.length ts)%nat /\ no_newline r)).
  { induction f as [|f IH]; [lia|]. intros ts F N. destruct ts as [|[b|k] ts]; cbn [collect].
    - now exists [], [].
    - inversion N; subst. assert (T : forall ts, no_newline ts -> no_newline (snd (take_bytes ts)) /\ (List.length (snd (take_bytes ts)) <= List.length ts)%nat).
      { clear. induction ts as [|[o|k] ts IH]; intros N; cbn; [now split| |now split]. inversion N; subst. destruct (IH H2).
        destruct (take_bytes ts). cbn in *. split; [assumption|lia]. }
      destruct (T ts H2) as [T1 T2]. destruct (take_bytes ts) as [b' r1]. cbn in T1, T2, F.
      destruct (IH r1) as (l & r & E & L & R); [lia|assumption|]. rewrite E. cbn. exists (ABytes (b ++ b') :: l), r. repeat split; [lia|assumption].
    - inversion N as [|? ? NL N']; subst. cbn in F.
      destruct k; try (destruct (IH ts) as (l & r & E & L & R); [lia|assumption|]; rewrite E; cbn; eexists; eexists; split; [reflexivity|split; [lia|assumption]]).
      + now contradiction NL.
      + destruct (IH ts) as (l & r & E & L & R); [lia|assumption|]. rewrite E. cbn.
        destruct (IH r) as (l2 & r2 & E2 & L2 & R2); [lia|assumption|]. rewrite E2. cbn. eexists; eexists; split; [reflexivity|split; [lia|assumption]].
      + exists [], ts. cbn. repeat split; [lia|assumption]. }
  induction f as [|f IH]; [lia|]. intros t d r b F N. cbn [abe_loop].
  destruct (next_byte_fuel t (len - lenN t) STD_PLAIN_CSET STD_ERR_CSET) as [K1 K2].
  destruct (next_byte t _ _ _) as [nb|e| |] eqn:E; [| |contradiction..].
  - pose proof (next_byte_sound _ _ _ _ _ E) as SP. pose proof (nb_shorter _ _ _ _ SP) as L.
    destruct nb as [|k rest|v rest].
    + unfold finish. destruct (negb _); [split; discriminate|].
      destruct (CT (S (List.length (flush r b))) (flush r b)) as (l & x & C & _); [lia|now apply NF|]. rewrite C. cbn. split; discriminate.
    + destruct (bracket_depth k d); [|split; discriminate]. apply IH; [lia|]. apply Forall_app. split; [now apply NF|].
      constructor; [|constructor]. intros [= ->]. inversion SP as [| | |k rest' E0 P0]; subst. now apply N.eqb_neq in E0.
    + apply IH; [lia|assumption].
  - destruct e; try (split; discriminate). destruct lenient; [|split; discriminate]. apply IH; [|assumption].
    destruct t as [|x t]; [discriminate|]. cbn in F. change (dropN 1 (x :: t)) with t. lia.
Qed.
