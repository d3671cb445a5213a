(** C85: the files of an instance. *)
From Coq Require Import Lia.
From Verif Require Import Bytes ModelAbe SpecAbe ModelEval ModelFn SpecEval ProofEval ProofEval2 SpecRead ProofRead ModelKey SpecKey ProofKey ModelFile SpecFile ProofFile ProofFile2 ProofFile3.
Local Open Scope N_scope.

Lemma allowed_dots gs : allowed gs -> ~ In DOTDOT gs.
Proof. intros (_ & H & _). exact H. Qed.
Lemma nul_all loc t : Forall ordinary loc -> has_nul (dirtext (loc ++ [str "files"]) ++ [47] ++ t) = has_nul t.
Proof. intros F. apply nul_place. apply Forall_app. split; [exact F|constructor; [exact ordinary_files|constructor]]. Qed.
Section C85.
Variable m : fs.
Variable loc : list bytes.
Hypothesis OK : fs_ok m.
Hypothesis IN : instance m loc.

(** A path is refused iff it is absolute, has a part ".." or starts with a part ".". *)
Theorem C85_refused t gs b notfound overwrite : parts t gs ->
  ((exists c, files_data m loc t notfound = Err (BadComponent c)) <-> ~ allowed gs) /\
  ((exists c, snd (set_files_data m loc t b overwrite) = Err (BadComponent c)) <-> ~ allowed gs) /\
  (~ allowed gs -> fst (set_files_data m loc t b overwrite) = m).
Proof.
  intros P. apply parts_iff in P as ->. unfold files_data, set_files_data. destruct (allowed_dec (split_on 47 t)) as [A|A].
  - rewrite (proj2 (check_iff t) A). cbn [obind]. split; [|split; [|tauto]].
    + split; [|tauto]. intros [c H]. destruct (read_file _ _) as [|[]| |], notfound; discriminate H.
    + split; [|tauto]. intros [c H]. destruct (create_dir_all _ _) as [m' [e|]]; [discriminate H|]. destruct (write_file _ _ _ _) as [m'' [e|]]; discriminate H.
  - destruct (check_err t A) as [c ->]. cbn [obind snd fst]. split; [split; [tauto|eauto]|]. split; [split; [tauto|eauto]|reflexivity].
Qed.
(** Reading gives the content of the file with the names of the path in the directory of the instance. *)
Theorem C85_read t gs ns notfound : parts t gs -> names gs ns ->
  (forall b, files_data m loc t notfound = Ok (Some b) <-> allowed gs /\ ~ says_dir gs /\ ~ In 0 t /\ m (place loc ns) = Some (File b)) /\
  (files_data m loc t notfound = Ok None <-> notfound = false /\ allowed gs /\ ~ In 0 t /\ absent m (place loc ns)).
Proof.
  intros P N. apply parts_iff in P as ->. apply names_iff in N as ->. destruct IN as [F D]. unfold files_data. destruct (allowed_dec (split_on 47 t)) as [A|A].
  - rewrite (proj2 (check_iff t) A). cbn [obind]. unfold read_file. destruct (place_text loc t F (allowed_rel t A)) as [T S]. rewrite T, (nul_all loc t F), <- T, S. destruct (has_nul t) eqn:NU.
    + assert (~ ~ In 0 t) by (intros H; apply nul_iff in H; congruence). split; [intros b; split; [discriminate|tauto]|]. split; [destruct notfound; discriminate|tauto].
    + apply nul_iff in NU. set (G := [] :: loc ++ str "files" :: split_on 47 t). assert (ND : ~ In DOTDOT G) by (apply no_dotdot; [exact F|exact (allowed_dots _ A)]).
      destruct (read_result m G OK ND ltac:(discriminate)) as (R1 & R2 & R3 & R4). unfold G in R1, R2 at 2. rewrite (keep_place loc _ F) in R1, R2. fold G in R1, R2.
      assert (SD : says_dir G <-> says_dir (split_on 47 t)).
      { rewrite !says_iff; [|apply split_ne|discriminate]. pose proof (split_ne 47 t) as NE. destruct (exists_last NE) as (l & g & E). unfold G. rewrite E. change ([] :: loc ++ str "files" :: l ++ [g]) with ([] :: loc ++ (str "files" :: l) ++ [g]).
        rewrite (app_assoc loc). rewrite !last_end. change ([] :: (loc ++ str "files" :: l) ++ [g]) with (([] :: loc ++ str "files" :: l) ++ [g]). rewrite last_end. reflexivity. }
      set (R := obind (walk m [] G) _) in *. split.
      * intros b. split.
        -- intros H. assert (R = Ok b) as RB by (destruct R as [x|[]| |], notfound; congruence). apply R1 in RB as [RB RS]. rewrite SD in RS. auto.
        -- intros (_ & RS & _ & RB). rewrite <- SD in RS. now rewrite (proj2 (R1 b) (conj RB RS)).
      * split.
        -- intros H. assert (R = Err ENOENT /\ notfound = false) as [RB ->] by (destruct R as [x|[]| |], notfound; split; congruence). apply R2 in RB. auto.
        -- intros (-> & _ & _ & RB). now rewrite (proj2 R2 RB).
  - destruct (check_err t A) as [c ->]. cbn [obind]. split; [intros b|]; (split; [discriminate|tauto]).
Qed.
(** In an expression *)
Theorem C85_expression s tt t gs ns b : offers s (escope (files_fe m loc) []) (str "files") -> argument s tt t -> parts t gs -> names gs ns ->
  evaluates s (str "[files:" ++ tt ++ str "]") b <-> is_utf8 t = true /\ allowed gs /\ ~ says_dir gs /\ ~ In 0 t /\ m (place loc ns) = Some (File b).
Proof.
  intros OF A P N. destruct (C85_read t gs ns true P N) as [R1 R2].
  assert (str "[files:" ++ tt ++ str "]" = 91 :: str "files" ++ args_text [tt] ++ [93]) as ->. { change (args_text [tt]) with ([58] ++ tt ++ []). now rewrite app_nil_r, <- !app_assoc. }
  set (r := if negb (is_utf8 t) then fails else match files_data m loc t true with Ok (Some b) => val b | Ok None => Panic | Err _ => fails | Panic => Panic | OutOfFuel => OutOfFuel end).
  rewrite (call_exprs s (str "files") (str "files") [tt] [t] r b); [|discriminate|vm_compute; discriminate|apply plain_reads; repeat constructor; vm_compute; intuition discriminate|constructor; [exact A|constructor]|].
  - rewrite <- R1. unfold r, val, fails. destruct (is_utf8 t); cbn [negb]; [|split; [discriminate|intros [H _]; discriminate H]]. destruct (files_data m loc t true) as [[x|]| | |]; split; try discriminate; try (intros [_ H]; congruence); intros H; split; congruence.
  - intros fuel. rewrite OF. refine (escope_some _ _ _ _ _ _ (fn (str "files") 1 1 _) _ (or_introl eq_refl) _); [reflexivity|]. cbn [f_lo f_hi fn]. change (lenN [t]) with 1. lia.
Qed.
End C85.

(** ** Writing *)
Lemma comps_place gs loc : ~ In DOTDOT gs -> Forall ordinary loc -> flat_map seg_component ([] :: loc ++ str "files" :: gs) = map Normal (place loc (keep gs)).
Proof.
  intros N F. rewrite <- (keep_place loc gs F). assert (D : ~ In DOTDOT ([] :: loc ++ str "files" :: gs)) by now apply no_dotdot. revert D. generalize ([] :: loc ++ str "files" :: gs). clear. intros l. induction l as [|g l IH]; intros D; [reflexivity|].
  cbn [flat_map]. rewrite IH by (intros I; apply D; now right). unfold keep. cbn [filter]. unfold seg_component, keeps. destruct (beqb g [] || beqb g DOT); cbn [negb]; [reflexivity|].
  destruct (beqb g DOTDOT) eqn:E; [apply beqb_eq in E as ->; exfalso; apply D; now left|reflexivity].
Qed.
Lemma parent_names X : X <> [] -> names_of (removelast (RootDir :: map Normal X)) = removelast X.
Proof.
  intros NE. destruct (exists_last NE) as (l & n & ->). rewrite map_app. change (RootDir :: map Normal l ++ map Normal [n]) with ((RootDir :: map Normal l) ++ [Normal n]). rewrite !removelast_last.
  unfold names_of. cbn [flat_map app]. clear. induction l as [|x l IH]; [reflexivity|]. cbn [map flat_map app]. now rewrite IH.
Qed.
Lemma above_pre q x n : above q (x ++ [n]) <-> pre q x.
Proof.
  split.
  - intros (k & r & E). destruct (list_end r) as [->|(r' & y & ->)]; [apply app_inj_tail in E as [-> _]; exists []; now rewrite app_nil_r|].
    change (q ++ k :: r' ++ [y]) with (q ++ (k :: r') ++ [y]) in E. rewrite app_assoc in E. apply app_inj_tail in E as [-> _]. now exists (k :: r').
  - intros [[|k r] ->]; [exists n, []; now rewrite app_nil_r|]. exists k, (r ++ [n]). now rewrite <- app_assoc.
Qed.
Lemma pre_linear a b p : pre a p -> pre b p -> pre a b \/ above b a.
Proof.
  intros [r ->]. revert b. induction a as [|x a IH]; intros b [s E]; [left; now exists b|]. destruct b as [|y b]; [right; exists x, a; reflexivity|]. cbn [app] in E. injection E as -> E.
  destruct (IH b) as [[u ->]|(k & u & ->)]; [now exists s|left; now exists u|right; exists k, u; reflexivity].
Qed.
Lemma walk_dir m gs : fs_ok m -> ~ In DOTDOT gs -> m (keep gs) = Some Dir -> walk m [] gs = Ok (keep gs).
Proof.
  intros OK N D. assert (E : exists x, keep gs = keep (removelast gs) ++ x). { destruct (list_end gs) as [->|(l & g & ->)]; [exists []; reflexivity|]. rewrite removelast_last, keep_app. eauto. }
  destruct E as [x E]. destruct (walk_cases m gs OK N) as [[W _]|[[W H]|[W H]]]; [exact W|exfalso..].
  - apply (absent_more _ _ x) in H. rewrite <- E in H. apply (absent_clear m _ OK) in H as [_ H]. congruence.
  - apply (filed_more _ _ x) in H. rewrite <- E in H. destruct H as (q & b & P & Q). pose proof (pre_up m q _ OK D P). congruence.
Qed.
Lemma write_refuses m t b c : is_name (last (split_on 47 t) []) = false -> exists e, write_file m t b c = (m, Some e).
Proof. intros N. unfold write_file. destruct (has_nul t); [eauto|]. destruct (walk m [] (removelast (split_on 47 t))) as [d|e| |]; eauto. destruct (m d) as [[|x]|]; eauto. rewrite N. eauto. Qed.
Lemma name_keeps g : g <> DOTDOT -> is_name g = keeps g.
Proof. intros N. unfold is_name, keeps. destruct (beqb g DOTDOT) eqn:E; [apply beqb_eq in E; contradiction|]. now rewrite orb_false_r. Qed.
Lemma create_nul m qs : existsb has_nul qs = true -> create_dir_all m (rev qs) = (m, Some EINVAL).
Proof. intros H. assert (M : mkdir m (rev (rev qs)) = (m, Some EINVAL)) by (rewrite rev_involutive; unfold mkdir; now rewrite H). assert (I : is_dir m (rev (rev qs)) = false) by (rewrite rev_involutive; unfold is_dir; now rewrite H). destruct (rev qs); cbn [create_dir_all]; now rewrite M, I. Qed.
Lemma same_dirs m loc ns : only_dirs m m loc ns.
Proof. intros q. now left. Qed.
Lemma filled_dirs m m' loc ns x n : fs_ok m -> m loc = Some Dir -> clear m x -> place loc ns = x ++ [n] -> filled m m' x -> only_dirs m m' loc ns.
Proof.
  intros OK D C E F q. destruct (F q) as [[P Q]|[_ Q]]; [|now left]. destruct (C q P) as [N|N]; [|left; congruence]. right. split; [exact N|]. split; [exact Q|].
  rewrite E. split; [|now apply above_pre]. assert (pre loc (x ++ [n])) as PL by (rewrite <- E; unfold place; eexists; reflexivity).
  destruct (pre_linear q loc (x ++ [n])) as [[r R]|R]; [apply pre_snoc; auto|exact PL| |exact R]. exfalso. assert (m q = Some Dir) by (apply (pre_up m q loc OK D); now exists r). congruence.
Qed.
Section Write.
Variable m : fs.
Variable loc : list bytes.
Hypothesis OK : fs_ok m.
Hypothesis IN : instance m loc.
(** Writing puts the content there, and nothing else but directories on the way; it fails iff something is in the way. *)
Theorem C85_write t gs ns b overwrite m' r : parts t gs -> names gs ns -> set_files_data m loc t b overwrite = (m', r) ->
  (r = Ok tt <-> allowed gs /\ ~ says_dir gs /\ ~ In 0 t /\ (forall q, above q (place loc ns) -> m q = None \/ m q = Some Dir) /\
                 (m (place loc ns) = None \/ overwrite = true /\ exists b0, m (place loc ns) = Some (File b0))) /\
  (r = Ok tt -> m' (place loc ns) = Some (File b) /\ forall q, q <> place loc ns -> above q (place loc ns) /\ m' q = Some Dir \/ ~ above q (place loc ns) /\ m' q = m q) /\
  (r <> Ok tt -> (exists e, r = Err e) /\ only_dirs m m' loc ns) /\ fs_ok m'.
Proof.
  intros P N. apply parts_iff in P as ->. apply names_iff in N as ->. destruct IN as [F D]. unfold set_files_data.
  destruct (allowed_dec (split_on 47 t)) as [A|A].
  2:{ destruct (check_err t A) as [c ->]. intros E. injection E as <- <-. split; [split; [discriminate|tauto]|]. split; [discriminate|]. split; [|exact OK]. intros _. split; [eauto|apply same_dirs]. }
  rewrite (proj2 (check_iff t) A). destruct (place_text loc t F (allowed_rel t A)) as [T S]. pose proof (allowed_dots _ A) as ND.
  set (p := path_join (files_dir loc) t) in *. assert (components p = RootDir :: map Normal (place loc (keep (split_on 47 t)))) as ->.
  { unfold components. rewrite S, (comps_place _ _ ND F). rewrite T. unfold dirtext. destruct loc; reflexivity. }
  assert (PN : place loc (keep (split_on 47 t)) <> []) by (unfold place; destruct loc; discriminate). rewrite (parent_names _ PN).
  destruct (exists_last PN) as (x & n & E). assert (NU : has_nul t = existsb has_nul (x ++ [n])).
  { rewrite <- E. rewrite nul_parts, <- nul_keep. unfold place. rewrite existsb_app. cbn [existsb]. change (has_nul (str "files")) with false. cbn [orb].
    assert (existsb has_nul loc = false) as ->; [|reflexivity]. clear - F. induction F as [|k l (_ & _ & _ & _ & H) F IH]; [reflexivity|]. cbn [existsb]. now rewrite (proj2 (nul_iff k) H). }
  rewrite E, removelast_last. rewrite existsb_app in NU.
  destruct (existsb has_nul x) eqn:NX.
  { rewrite (create_nul m x NX). assert (~ ~ In 0 t) by (intros H; apply nul_iff in H; rewrite NU in H; discriminate H). intros H1. injection H1 as <- <-. split; [split; [discriminate|tauto]|]. split; [discriminate|]. split; [|exact OK]. intros _. split; [eauto|apply same_dirs]. }
  assert (PX : Forall plain_name x).
  { apply Forall_forall. intros k I. assert (In k (place loc (keep (split_on 47 t)))) as J by (rewrite E; apply in_or_app; now left). assert (has_nul k = false) as NK.
    { destruct (has_nul k) eqn:H; [|reflexivity]. assert (existsb has_nul x = true) by (apply existsb_exists; eauto). congruence. }
    unfold place in J. apply in_app_or in J as [J|[<-|J]].
    - apply (proj1 (Forall_forall _ _) F) in J as J'. split; [now apply ordinary_keeps|]. split; [apply J'|exact NK].
    - split; [reflexivity|]. split; [discriminate|exact NK].
    - apply filter_In in J as [J K]. split; [exact K|]. split; [intros ->; contradiction|exact NK]. }
  destruct (create_cases m x OK PX) as [(C & m1 & CE & OK1 & FL)|(B & e & CE)]; rewrite CE.
  2:{ intros H1. injection H1 as <- <-. split; [|split; [discriminate|split; [intros _; split; [eauto|apply same_dirs]|exact OK]]].
      split; [discriminate|]. intros (_ & _ & _ & H & _). exfalso. apply (clear_filed m x); [|exact B]. intros q Q. apply H. now apply above_pre. }
  pose proof (filled_dirs m m1 loc _ x n OK D C E FL) as OD. pose proof (split_ne 47 t) as NE. pose proof (says_iff _ NE) as SD. destruct (exists_last NE) as (l & g & EG).
  assert (LG : last (split_on 47 p) [] = g). { rewrite S, EG. change ([] :: loc ++ str "files" :: l ++ [g]) with ([] :: loc ++ (str "files" :: l) ++ [g]). rewrite (app_assoc loc). change ([] :: (loc ++ str "files" :: l) ++ [g]) with (([] :: loc ++ str "files" :: l) ++ [g]). apply last_end. }
  assert (GD : g <> DOTDOT) by (intros ->; apply ND; rewrite EG; apply in_or_app; right; now left). rewrite EG, last_end in SD.
  destruct (keeps g) eqn:KG.
  2:{ destruct (write_refuses m1 p b (negb overwrite)) as [e W]; [rewrite LG, (name_keeps g GD); exact KG|]. rewrite W. intros H1. injection H1 as <- <-.
      assert (says_dir (split_on 47 t)). { rewrite EG. apply SD. unfold keep. cbn [filter]. now rewrite KG. }
      split; [split; [discriminate|tauto]|]. split; [discriminate|]. split; [|exact OK1]. intros _. split; [eauto|exact OD]. }
  assert (NSD : ~ says_dir (split_on 47 t)). { rewrite EG, SD. unfold keep. cbn [filter]. rewrite KG. discriminate. }
  assert (x = place loc (keep l) /\ n = g) as [-> ->]. { rewrite EG, keep_app in E. unfold keep at 2 in E. cbn [filter] in E. rewrite KG in E. unfold place in E. change (loc ++ str "files" :: keep l ++ [g]) with (loc ++ (str "files" :: keep l) ++ [g]) in E. rewrite app_assoc in E. apply app_inj_tail in E as [<- <-]. auto. }
  unfold write_file. rewrite T, (nul_all loc t F), <- T. cbn [existsb orb] in NU. destruct (has_nul t) eqn:NT.
  { assert (~ ~ In 0 t) by (intros H; apply nul_iff in H; congruence). intros H1. injection H1 as <- <-. split; [split; [discriminate|tauto]|]. split; [discriminate|]. split; [|exact OK1]. intros _. split; [eauto|exact OD]. }
  apply nul_iff in NT. assert (RL : removelast (split_on 47 p) = [] :: loc ++ str "files" :: l).
  { rewrite S, EG. change ([] :: loc ++ str "files" :: l ++ [g]) with ([] :: loc ++ (str "files" :: l) ++ [g]). rewrite (app_assoc loc). change ([] :: (loc ++ str "files" :: l) ++ [g]) with (([] :: loc ++ str "files" :: l) ++ [g]). apply removelast_last. }
  set (X := place loc (keep l)) in *. assert (D1 : m1 X = Some Dir). { destruct (FL X) as [[_ H]|[H _]]; [exact H|]. exfalso. apply H. exists []. now rewrite app_nil_r. }
  assert (NP : ~ pre (X ++ [g]) X). { intros [u H]. apply (f_equal (@List.length _)) in H. rewrite !app_length in H. cbn in H. lia. }
  assert (T1 : m1 (X ++ [g]) = m (X ++ [g])). { destruct (FL (X ++ [g])) as [[H _]|[_ H]]; [contradiction|exact H]. }
  assert (W : walk m1 [] (removelast (split_on 47 p)) = Ok X).
  { rewrite RL, (walk_dir m1); [now rewrite keep_place| exact OK1| |now rewrite keep_place]. apply no_dotdot; [exact F|]. intros I. apply ND. rewrite EG. apply in_or_app. now left. }
  cbv zeta. rewrite W, D1, LG, (name_keeps g GD), KG, T1. rewrite !EG, !keep_app. assert (keep [g] = [g]) as -> by (unfold keep; cbn [filter]; now rewrite KG).
  assert (PE : place loc (keep l ++ [g]) = X ++ [g]) by (unfold X, place; change (loc ++ str "files" :: keep l ++ [g]) with (loc ++ (str "files" :: keep l) ++ [g]); now rewrite app_assoc).
  rewrite EG, keep_app in OD. unfold keep at 2 in OD. cbn [filter] in OD. rewrite KG in OD. rewrite <- EG.
  assert (CL : forall q, above q (X ++ [g]) -> m q = None \/ m q = Some Dir) by (intros q Q; apply C; now apply above_pre in Q).
  assert (GOOD : (m (X ++ [g]) = None \/ overwrite = true /\ exists b0, m (X ++ [g]) = Some (File b0)) -> forall m' r, (put m1 (X ++ [g]) (File b), Ok tt) = (m', r) ->
    (r = Ok tt <-> allowed (split_on 47 t) /\ ~ says_dir (split_on 47 t) /\ ~ In 0 t /\ (forall q, above q (X ++ [g]) -> m q = None \/ m q = Some Dir) /\ (m (X ++ [g]) = None \/ overwrite = true /\ exists b0, m (X ++ [g]) = Some (File b0))) /\
    (r = Ok tt -> m' (X ++ [g]) = Some (File b) /\ forall q, q <> X ++ [g] -> above q (X ++ [g]) /\ m' q = Some Dir \/ ~ above q (X ++ [g]) /\ m' q = m q) /\
    (r <> @Ok FileError unit tt -> (exists e, r = Err e) /\ only_dirs m m' loc (keep l ++ [g])) /\ fs_ok m').
  { clear m' r. intros FREE m' r H. injection H as <- <-. split; [split; auto|]. split; [intros _|split; [congruence|]].
    - split; [apply put_same|]. intros q Q. rewrite put_other by congruence. rewrite above_pre. destruct (FL q) as [H|H]; auto.
    - apply put_ok; [exact OK1|exact D1|]. intros b1. left. rewrite T1. destruct FREE as [->|[_ [b0 ->]]]; discriminate. }
  assert (BAD : ~ (m (X ++ [g]) = None \/ overwrite = true /\ exists b0, m (X ++ [g]) = Some (File b0)) -> forall e m' r, (m1, Err (Io e)) = (m', r) ->
    (r = Ok tt <-> allowed (split_on 47 t) /\ ~ says_dir (split_on 47 t) /\ ~ In 0 t /\ (forall q, above q (X ++ [g]) -> m q = None \/ m q = Some Dir) /\ (m (X ++ [g]) = None \/ overwrite = true /\ exists b0, m (X ++ [g]) = Some (File b0))) /\
    (r = Ok tt -> m' (X ++ [g]) = Some (File b) /\ forall q, q <> X ++ [g] -> above q (X ++ [g]) /\ m' q = Some Dir \/ ~ above q (X ++ [g]) /\ m' q = m q) /\
    (r <> @Ok FileError unit tt -> (exists e, r = Err e) /\ only_dirs m m' loc (keep l ++ [g])) /\ fs_ok m').
  { clear m' r. intros FREE e m' r H. injection H as <- <-. split; [split; [discriminate|tauto]|]. split; [discriminate|]. split; [|exact OK1]. intros _. split; [eauto|exact OD]. }
  destruct (m (X ++ [g])) as [[|b0]|]; destruct overwrite; cbn [negb].
  - apply BAD. intros [H|[_ [b1 H]]]; discriminate H.
  - apply BAD. intros [H|[H _]]; discriminate H.
  - apply GOOD. eauto.
  - apply BAD. intros [H|[H _]]; discriminate H.
  - apply GOOD. auto.
  - apply GOOD. auto.
Qed.
End Write.

(** What was written is read, by every path with the same names; what is read by paths with other names stays the same, unless the file is on their way. *)
Theorem C85_round_trip m loc t gs ns b overwrite m' : fs_ok m -> instance m loc -> parts t gs -> names gs ns -> set_files_data m loc t b overwrite = (m', Ok tt) ->
  instance m' loc /\
  (forall t' gs' notfound, parts t' gs' -> names gs' ns -> allowed gs' -> ~ says_dir gs' -> files_data m' loc t' notfound = Ok (Some b)) /\
  (forall t' gs' ns' notfound b', parts t' gs' -> names gs' ns' -> ns' <> ns -> files_data m loc t' notfound = Ok (Some b') <-> files_data m' loc t' notfound = Ok (Some b')).
Proof.
  intros OK IN P N E. destruct (C85_write m loc OK IN t gs ns b overwrite m' (Ok tt) P N E) as (OKI & W & _ & OK'). destruct (proj1 OKI eq_refl) as (_ & _ & NT & CL & FREE). destruct (W eq_refl) as [W1 W2].
  assert (LA : above loc (place loc ns)) by (exists (str "files"), ns; reflexivity).
  assert (LN : loc <> place loc ns). { intros H. apply (f_equal (@List.length _)) in H. unfold place in H. rewrite app_length in H. cbn in H. lia. }
  assert (IN' : instance m' loc). { split; [apply IN|]. destruct (W2 loc LN) as [[_ H]|[H _]]; [exact H|contradiction]. }
  split; [exact IN'|]. split.
  - intros t' gs' nf P' N' A S. apply (C85_read m' loc OK' IN' t' gs' ns nf P' N'). split; [exact A|]. split; [exact S|]. split; [|exact W1].
    apply parts_iff in P' as ->. apply parts_iff in P as ->. apply names_iff in N'. apply names_iff in N. apply nul_iff. apply nul_iff in NT. rewrite nul_parts, <- nul_keep in *. congruence.
  - intros t' gs' ns' nf b' P' N' D. rewrite (proj1 (C85_read m' loc OK' IN' t' gs' ns' nf P' N')), (proj1 (C85_read m loc OK IN t' gs' ns' nf P' N')).
    assert (PD : place loc ns' <> place loc ns). { intros H. apply D. unfold place in H. apply app_inv_head in H. congruence. }
    assert (m' (place loc ns') = Some (File b') <-> m (place loc ns') = Some (File b')) as X; [|tauto].
    destruct (W2 _ PD) as [[AB H]|[_ H]]; [|rewrite H; tauto]. split; [congruence|]. intros H2. destruct (CL _ AB); congruence.
Qed.
(** Finding F111: a path that starts with a dot is refused although it means the same file as one with a dot further on. *)
Theorem F111_leading_dot m loc t gs ns b notfound : fs_ok m -> instance m loc -> parts t gs -> names gs ns -> allowed gs -> gs <> [[]] -> files_data m loc t notfound = Ok (Some b) ->
  files_data m loc (str "./" ++ t) notfound = Err (BadComponent CurDir) /\ (forall g r, gs = g :: r -> r <> [] -> files_data m loc (slashed (g :: str "." :: r)) notfound = Ok (Some b)).
Proof.
  intros OK IN P N A NE E. split.
  - unfold files_data, check_path, components. reflexivity.
  - intros g r -> NR. apply (C85_read m loc OK IN t _ ns notfound P N) in E as (_ & S & NT & M). assert (F : Forall (fun x => ~ In 47 x) (g :: r)) by (destruct P as (_ & _ & F); exact F). apply Forall_cons_iff in F as [F1 F2].
    assert (PP : parts (slashed (g :: str "." :: r)) (g :: str "." :: r)). { split; [discriminate|]. split; [reflexivity|]. constructor; [exact F1|]. constructor; [vm_compute; intuition discriminate|exact F2]. }
    assert (NN : names (g :: str "." :: r) ns). { apply names_iff. apply names_iff in N as ->. unfold keep. cbn [filter]. destruct (keeps g); reflexivity. }
    apply (C85_read m loc OK IN _ _ ns notfound PP NN). split; [|split; [|split; [|exact M]]].
    + destruct A as (A1 & A2 & A3). split; [|split].
      * intros x. left. destruct (A1 r) as [H|H]; [congruence|contradiction].
      * intros [H|[H|H]]; [apply A2; now left|discriminate H|apply A2; now right].
      * intros x H. injection H as -> _. now apply (A3 r).
    + rewrite says_iff in S |- * by discriminate. intros H. apply S. destruct r; [contradiction|]. exact H.
    + apply nul_iff. apply parts_iff in PP. rewrite nul_parts, <- PP. apply parts_iff in P. apply nul_iff in NT. rewrite nul_parts, <- P in NT. exact NT.
Qed.

(** ** Example *)
Definition ex_loc : list bytes := [str "home"; str "lk"].
Definition ex_fs : fs := fun p =>
  if path_eqb p [] || path_eqb p [str "home"] || path_eqb p ex_loc || path_eqb p (place ex_loc []) then Some Dir
  else if path_eqb p (place ex_loc [str "a"]) then Some (File [1; 2]) else if path_eqb p [str "home"; str "secret"] then Some (File [3]) else None.
Lemma ex_fs_ok : fs_ok ex_fs.
Proof.
  split; [reflexivity|]. intros p n H. unfold ex_fs in H. destruct (path_eqb (p ++ [n]) []) eqn:E1; [apply path_eqb_iff in E1; destruct p; discriminate E1|].
  destruct (path_eqb (p ++ [n]) [str "home"]) eqn:E2; [apply path_eqb_iff in E2; apply (app_inj_tail p []) in E2 as [-> _]; reflexivity|].
  destruct (path_eqb (p ++ [n]) ex_loc) eqn:E3; [apply path_eqb_iff in E3; apply (app_inj_tail p [str "home"]) in E3 as [-> _]; reflexivity|].
  destruct (path_eqb (p ++ [n]) (place ex_loc [])) eqn:E4; [apply path_eqb_iff in E4; apply (app_inj_tail p [str "home"; str "lk"]) in E4 as [-> _]; reflexivity|].
  destruct (path_eqb (p ++ [n]) (place ex_loc [str "a"])) eqn:E5; [apply path_eqb_iff in E5; apply (app_inj_tail p [str "home"; str "lk"; str "files"]) in E5 as [-> _]; reflexivity|].
  destruct (path_eqb (p ++ [n]) [str "home"; str "secret"]) eqn:E6; [apply path_eqb_iff in E6; apply (app_inj_tail p [str "home"]) in E6 as [-> _]; reflexivity|]. cbn in H. contradiction.
Qed.
Lemma ex_instance : instance ex_fs ex_loc.
Proof. split; [|reflexivity]. repeat constructor; try discriminate; vm_compute; intuition discriminate. Qed.
Example C85_ex : fs_ok ex_fs /\ instance ex_fs ex_loc /\ files_data ex_fs ex_loc (str "a") true = Ok (Some [1; 2]) /\ files_data ex_fs ex_loc (str "../../secret") true = Err (BadComponent ParentDir) /\
  files_data ex_fs ex_loc (str "/home/secret") true = Err (BadComponent RootDir) /\ files_data ex_fs ex_loc (str "b/c") false = Ok None /\
  (exists m', set_files_data ex_fs ex_loc (str "b//c") [7] false = (m', Ok tt) /\ files_data m' ex_loc (str "b/./c") true = Ok (Some [7]) /\ m' (place ex_loc [str "b"]) = Some Dir) /\
  snd (set_files_data ex_fs ex_loc (str "a") [7] false) = Err (Io EEXIST) /\ snd (set_files_data ex_fs ex_loc (str "a/b") [7] true) = Err (Io EEXIST) /\
  parts (str "b//c") [str "b"; []; str "c"] /\ names [str "b"; []; str "c"] [str "b"; str "c"] /\ allowed [str "b"; []; str "c"].
Proof.
  split; [exact ex_fs_ok|]. split; [exact ex_instance|]. do 4 (split; [vm_compute; reflexivity|]). split; [eexists; split; [reflexivity|]; split; vm_compute; reflexivity|].
  do 2 (split; [vm_compute; reflexivity|]). split; [apply parts_iff; reflexivity|]. split; [apply names_iff; reflexivity|]. split; [intros r; left; discriminate|]. split; [cbn; intuition discriminate|discriminate].
Qed.
Print Assumptions C85_refused.
Print Assumptions C85_read.
Print Assumptions C85_expression.
Print Assumptions C85_write.
Print Assumptions C85_round_trip.
Print Assumptions F111_leading_dot.
