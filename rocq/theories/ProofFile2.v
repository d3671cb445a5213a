(** Lemmas about the paths of files. *)
From Coq Require Import Lia.
From Verif Require Import Bytes ModelAbe ModelEval ModelFn ModelKey SpecKey ProofKey ModelFile SpecFile ProofFile.
Local Open Scope N_scope.

Lemma slashed_join gs : slashed gs = join 47 gs.
Proof. induction gs as [|g gs IH]; [reflexivity|]. destruct gs as [|h gs]; [reflexivity|]. cbn [slashed join] in *. now rewrite IH. Qed.
Lemma parts_iff t gs : parts t gs <-> gs = split_on 47 t.
Proof.
  unfold parts. rewrite slashed_join. split; [intros (NE & -> & F); symmetry; now apply split_join|]. intros ->. split; [apply split_ne|]. split; [symmetry; apply join_split|apply split_without].
Qed.
Lemma keeps_iff g : keeps g = false <-> g = [] \/ g = str ".".
Proof.
  unfold keeps. change DOT with (str "."). destruct (beqb g []) eqn:A; [apply beqb_eq in A as ->; cbn; tauto|]. destruct (beqb g (str ".")) eqn:B; [apply beqb_eq in B as ->; cbn; tauto|]. cbn.
  split; [discriminate|]. intros [->| ->]; [discriminate A|discriminate B].
Qed.
Lemma names_iff gs ns : names gs ns <-> ns = keep gs.
Proof.
  split.
  - induction 1 as [|g gs ns H N IH|g gs ns H1 H2 N IH]; [reflexivity| |]; unfold keep in *; cbn [filter].
    + rewrite (proj2 (keeps_iff g) H). exact IH.
    + destruct (keeps g) eqn:E; [now rewrite IH|]. apply keeps_iff in E as [E|E]; contradiction.
  - revert ns. induction gs as [|g gs IH]; intros ns ->; [constructor|]. unfold keep. cbn [filter]. destruct (keeps g) eqn:E.
    + constructor; [intros ->; discriminate E|intros ->; discriminate E|now apply IH].
    + constructor; [now apply keeps_iff|now apply IH].
Qed.
Lemma split_head t : (exists r, t = 47 :: r) <-> exists r, split_on 47 t = [] :: r /\ r <> [].
Proof.
  destruct t as [|c t]; [split; [intros [r H]; discriminate H|intros (r & H & N); cbn in H; congruence]|]. cbn [split_on]. pose proof (split_ne 47 t) as NE. destruct (N.eqb_spec c 47) as [->|C].
  - split; [intros _; eauto|eauto].
  - split; [intros [r H]; congruence|]. intros (r & H & _). destruct (split_on 47 t); discriminate H.
Qed.
Lemma seg_normal g : forallb is_normal (seg_component g) = negb (beqb g DOTDOT).
Proof.
  unfold seg_component. destruct (beqb g []) eqn:A; [apply beqb_eq in A as ->; reflexivity|]. destruct (beqb g DOT) eqn:B; [apply beqb_eq in B as ->; reflexivity|]. cbn [orb].
  destruct (beqb g DOTDOT); reflexivity.
Qed.
Lemma find_none_iff {A} (f : A -> bool) l : find (fun c => negb (f c)) l = None <-> forallb f l = true.
Proof. induction l as [|c l IH]; [split; reflexivity|]. cbn [find forallb]. destruct (f c); cbn [negb andb]; [exact IH|split; discriminate]. Qed.
Lemma segs_normal gs : forallb is_normal (flat_map seg_component gs) = true <-> ~ In DOTDOT gs.
Proof.
  induction gs as [|g gs IH]; [split; [intros _ []|reflexivity]|]. cbn [flat_map]. rewrite forallb_app, andb_true_iff, IH, seg_normal. cbn [In]. destruct (beqb g DOTDOT) eqn:E; cbn [negb].
  - apply beqb_eq in E. split; [intros [H _]; discriminate|intros N; exfalso; apply N; now left].
  - assert (g <> DOTDOT) by (intros ->; rewrite beqb_refl in E; discriminate). tauto.
Qed.
Lemma slash_dec t : (exists r, t = 47 :: r) \/ forall r, t <> 47 :: r.
Proof. destruct t as [|c t]; [right; discriminate|]. destruct (N.eq_dec c 47) as [->|C]; [left; eauto|right; congruence]. Qed.
Lemma not_slash {A} (t : bytes) (a b : A) : (forall r, t <> 47 :: r) -> match t with 47 :: _ => a | _ => b end = b.
Proof. intros N. destruct t as [|c t]; [reflexivity|]. destruct c as [|p]; [reflexivity|]. do 6 (destruct p; try reflexivity). exfalso. now apply (N t). Qed.
Lemma check_iff t : check_path t = Ok t <-> allowed (split_on 47 t).
Proof.
  unfold check_path, components. set (F := find _ _). assert (F = None <-> allowed (split_on 47 t)) as H.
  - unfold F. clear F. rewrite find_none_iff, forallb_app, andb_true_iff, segs_normal. unfold allowed. change (str "..") with DOTDOT. change (str ".") with DOT. destruct (slash_dec t) as [[r ->]|N].
    + split; [intros [H _]; discriminate H|]. intros (H & _). destruct (proj1 (split_head (47 :: r)) (ex_intro _ r eq_refl)) as (x & E & NE). exfalso. destruct (H x); contradiction.
    + rewrite not_slash by exact N. destruct (beqb (hd [] (split_on 47 t)) DOT) eqn:E.
      * split; [intros [H _]; discriminate H|]. intros (_ & _ & H). exfalso. apply beqb_eq in E. pose proof (split_ne 47 t) as NE. destruct (split_on 47 t) as [|g r]; [contradiction|]. cbn in E. apply (H r). now rewrite E.
      * split.
        -- intros [_ D]. split; [|split; [exact D|]].
           ++ intros r. destruct (list_eq_dec (list_eq_dec N.eq_dec) r []) as [->|NE]; [now right|left]. intros H. destruct (proj2 (split_head t)) as [x X]; [eauto|]. now apply (N x).
           ++ intros r H. rewrite H in E. discriminate E.
        -- intros (_ & D & _). split; [reflexivity|exact D].
  - destruct F; split; [discriminate|intros X; apply H in X; discriminate X|intros _; now apply H|reflexivity].
Qed.
Lemma check_err t : ~ allowed (split_on 47 t) -> exists c, check_path t = Err (BadComponent c).
Proof. intros N. unfold check_path in *. destruct (find _ _) as [c|] eqn:E; [eauto|]. exfalso. apply N, check_iff. unfold check_path. now rewrite E. Qed.
Lemma allowed_dec gs : allowed gs \/ ~ allowed gs.
Proof.
  unfold allowed. destruct (in_dec (list_eq_dec N.eq_dec) (str "..") gs) as [I|I]; [right; tauto|]. destruct gs as [|g r]; [left; split; [left; discriminate|split; [exact I|discriminate]]|].
  destruct (list_eq_dec N.eq_dec g (str ".")) as [->|D]; [right; intros (_ & _ & H); now apply (H r)|].
  destruct (list_eq_dec N.eq_dec g []) as [->|E].
  - destruct r as [|x r]; [|right; intros (H & _); destruct (H (x :: r)) as [H1|H1]; [congruence|discriminate H1]]. left. split; [|split; [exact I|intros r; congruence]].
    intros [|x r]; [now right|left; discriminate].
  - left. split; [|split; [exact I|congruence]]. intros x. left. congruence.
Qed.

(** ** The text of a path of the instance *)
Lemma last_snoc (a : bytes) c d : last (a ++ [c]) d = c.
Proof. induction a as [|x a IH]; [reflexivity|]. cbn [app last]. destruct (a ++ [c]) eqn:E; [destruct a; discriminate E|exact IH]. Qed.
Lemma join_rel (a b : bytes) : (forall r, b <> 47 :: r) -> a <> [] -> last a 0 <> 47 -> path_join a b = a ++ [47] ++ b.
Proof. intros N NE L. unfold path_join. rewrite not_slash by exact N. destruct a as [|x a]; [contradiction|]. destruct (N.eqb_spec (last (x :: a) 0) 47); [contradiction|reflexivity]. Qed.
Lemma last_not (a : bytes) c : a <> [] -> ~ In c a -> last a 0 <> c.
Proof. intros NE N E. apply N. destruct (exists_last NE) as (l & x & ->). rewrite last_snoc in E. apply in_or_app. right. now left. Qed.
Definition dirtext (loc : list bytes) : bytes := flat_map (fun n => 47 :: n) loc.
Lemma files_text loc : Forall ordinary loc -> files_dir loc = dirtext (loc ++ [str "files"]).
Proof.
  intros F. unfold files_dir, dirtext. destruct (list_end loc) as [->|(l & n & ->)]; [reflexivity|]. assert (flat_map (fun n0 : bytes => 47 :: n0) (l ++ [n]) = flat_map (fun n0 : bytes => 47 :: n0) l ++ 47 :: n) as E by (rewrite flat_map_app; cbn; now rewrite app_nil_r).
  apply Forall_app in F as [_ F]. apply Forall_cons_iff in F as [(N1 & _ & _ & N4 & _) _].
  transitivity (path_join (flat_map (fun n0 : bytes => 47 :: n0) (l ++ [n])) (str "files")); [destruct (l ++ [n]) eqn:Q; [destruct l; discriminate Q|reflexivity]|].
  rewrite join_rel.
  - rewrite (flat_map_app _ (l ++ [n])). reflexivity.
  - discriminate.
  - rewrite E. destruct (flat_map _ l); discriminate.
  - rewrite E. destruct (exists_last N1) as (k & x & K). rewrite K. change (47 :: k ++ [x]) with ((47 :: k) ++ [x]). rewrite app_assoc, last_snoc. intros ->. apply N4. rewrite K. apply in_or_app. right. now left.
Qed.
Lemma split_dirtext ls t : Forall (fun n => ~ In 47 n) ls -> split_on 47 (dirtext ls ++ [47] ++ t) = [] :: ls ++ split_on 47 t.
Proof.
  intros F. induction F as [|n ls N F IH]; [reflexivity|]. change (dirtext (n :: ls) ++ [47] ++ t) with ([] ++ 47 :: ((n ++ dirtext ls) ++ [47] ++ t)). rewrite split_cons by intros []. f_equal.
  rewrite <- app_assoc. change ((n :: ls) ++ split_on 47 t) with (n :: ls ++ split_on 47 t). destruct ls as [|k ls].
  - change (dirtext [] ++ [47] ++ t) with (47 :: t). now apply split_cons.
  - change (dirtext (k :: ls) ++ [47] ++ t) with (47 :: ((k ++ dirtext ls) ++ [47] ++ t)) in IH |- *. rewrite split_cons by exact N. f_equal.
    change (47 :: (k ++ dirtext ls) ++ [47] ++ t) with ([] ++ 47 :: ((k ++ dirtext ls) ++ [47] ++ t)) in IH. rewrite split_cons in IH by intros []. now injection IH.
Qed.
Lemma ordinary_files : ordinary (str "files").
Proof. split; [discriminate|]. split; [discriminate|]. split; [discriminate|]. split; vm_compute; intuition discriminate. Qed.
Lemma ordinary_slash ls : Forall ordinary ls -> Forall (fun n => ~ In 47 n) ls.
Proof. intros F. eapply Forall_impl; [|exact F]. intros n (_ & _ & _ & H & _). exact H. Qed.
Lemma place_text loc t : Forall ordinary loc -> (forall r, t <> 47 :: r) ->
  path_join (files_dir loc) t = dirtext (loc ++ [str "files"]) ++ [47] ++ t /\ split_on 47 (path_join (files_dir loc) t) = [] :: loc ++ str "files" :: split_on 47 t.
Proof.
  intros F N. assert (path_join (files_dir loc) t = dirtext (loc ++ [str "files"]) ++ [47] ++ t) as E.
  { rewrite files_text by exact F. apply join_rel; [exact N| |].
    - unfold dirtext. destruct loc; discriminate.
    - unfold dirtext. rewrite flat_map_app. change (flat_map (fun n : bytes => 47 :: n) [str "files"]) with ((47 :: str "file") ++ [115]). rewrite app_assoc, last_snoc. discriminate. }
  split; [exact E|]. rewrite E, split_dirtext; [now rewrite <- app_assoc|]. apply ordinary_slash. apply Forall_app. split; [exact F|constructor; [exact ordinary_files|constructor]].
Qed.
Lemma allowed_rel t : allowed (split_on 47 t) -> forall r, t <> 47 :: r.
Proof. intros (H & _) r ->. destruct (proj1 (split_head (47 :: r)) (ex_intro _ r eq_refl)) as (x & E & NE). destruct (H x); contradiction. Qed.
Lemma ordinary_keeps n : ordinary n -> keeps n = true.
Proof. intros (A & B & _). destruct (keeps n) eqn:E; [reflexivity|]. apply keeps_iff in E as [E|E]; contradiction. Qed.
Lemma keep_ordinary ls : Forall ordinary ls -> keep ls = ls.
Proof. induction 1 as [|n ls O F IH]; [reflexivity|]. unfold keep. cbn [filter]. rewrite (ordinary_keeps n O). f_equal. exact IH. Qed.
Lemma keep_place loc gs : Forall ordinary loc -> keep ([] :: loc ++ str "files" :: gs) = place loc (keep gs).
Proof. intros F. change (keep ([] :: loc ++ str "files" :: gs)) with (keep (loc ++ str "files" :: gs)). rewrite keep_app, (keep_ordinary loc F). reflexivity. Qed.
Lemma no_dotdot loc gs : Forall ordinary loc -> ~ In DOTDOT gs -> ~ In DOTDOT ([] :: loc ++ str "files" :: gs).
Proof.
  intros F N [E|I]; [discriminate E|]. apply in_app_or in I as [I|[E|I]]; [|discriminate E|contradiction]. pose proof (proj1 (Forall_forall _ _) F _ I) as (_ & _ & H & _). now apply H.
Qed.
Lemma nul_iff t : has_nul t = false <-> ~ In 0 t.
Proof.
  unfold has_nul. split.
  - intros E I. assert (existsb (fun c => c =? 0) t = true) by (apply existsb_exists; exists 0; auto). congruence.
  - intros N. destruct (existsb _ t) eqn:E; [|reflexivity]. apply existsb_exists in E as (c & I & C). apply N.eqb_eq in C. subst c. contradiction.
Qed.
Lemma nul_place ls t : Forall ordinary ls -> has_nul (dirtext ls ++ [47] ++ t) = has_nul t.
Proof.
  intros F. assert (has_nul (dirtext ls) = false) as E.
  { apply nul_iff. intros I. unfold dirtext in I. apply in_flat_map in I as (n & I & [J|J]); [discriminate J|]. apply (proj1 (Forall_forall _ _) F) in I as (_ & _ & _ & _ & H). contradiction. }
  unfold has_nul in *. rewrite !existsb_app, E. reflexivity.
Qed.
Lemma nul_parts t : has_nul t = existsb has_nul (split_on 47 t).
Proof.
  induction t as [|c t IH]; [reflexivity|]. cbn [split_on]. pose proof (split_ne 47 t) as NE. change (has_nul (c :: t)) with ((c =? 0) || has_nul t). rewrite IH. destruct (N.eqb_spec c 47) as [->|C].
  - reflexivity.
  - destruct (split_on 47 t) as [|g r]; [contradiction|]. cbn [existsb]. change (has_nul (c :: g)) with ((c =? 0) || has_nul g). now rewrite orb_assoc.
Qed.
Lemma nul_keep gs : existsb has_nul (keep gs) = existsb has_nul gs.
Proof.
  induction gs as [|g gs IH]; [reflexivity|]. unfold keep in *. cbn [filter]. destruct (keeps g) eqn:E; cbn [existsb]; rewrite IH; [reflexivity|]. apply keeps_iff in E as [->| ->]; reflexivity.
Qed.
Lemma says_iff gs : gs <> [] -> (says_dir gs <-> keep [last gs []] = []).
Proof.
  intros NE. destruct (exists_last NE) as (l & g & ->). assert (last (l ++ [g]) [] = g) as ->. { clear NE. induction l as [|x l IH]; [reflexivity|]. cbn [app last]. destruct (l ++ [g]) eqn:E; [destruct l; discriminate E|exact IH]. }
  unfold keep. cbn [filter]. unfold says_dir. split.
  - intros (k & [E|E]); apply app_inj_tail in E as [_ ->]; reflexivity.
  - destruct (keeps g) eqn:E; [discriminate|]. intros _. apply keeps_iff in E as [->| ->]; eauto.
Qed.
