(** C104: the default group and domain of a thread. *)
From Verif Require Import Bytes ModelLns ModelTls SpecTls.

Lemma put_same c t w x : put c t w x t w = x.
Proof. unfold put. rewrite N.eqb_refl. now destruct w. Qed.
Lemma put_other c t w x u v : (u, v) <> (t, w) -> put c t w x u v = c u v.
Proof. unfold put. intros H. destruct (N.eqb_spec u t) as [->|]; [|reflexivity]. destruct v, w; cbn; try reflexivity; congruence. Qed.
Lemma ops_app c a b : ops c (a ++ b) = let '(c1, r) := ops c a in let '(c2, q) := ops c1 b in (c2, r ++ q).
Proof.
  revert c. induction a as [|[[t w] o] a IH]; intros c; cbn [app ops].
  - now destruct (ops c b).
  - destruct (op w (c t w) o) as [x r]. rewrite IH. destruct (ops (put c t w x) a) as [c1 r1]. now destruct (ops c1 b).
Qed.
(** An operation on an empty cell *)
Lemma op_none w o : (forall v, settles w o v -> op w None o = (Some v, Ok v)) /\ ((forall v, ~ settles w o v) -> op w None o = (None, Panic)).
Proof.
  destruct o as [[| |[x|]]|x]; cbn [settles op get_or_init init]; split; intros; subst; try reflexivity; try contradiction.
  - now destruct (H _ eq_refl).
  - now destruct (H x).
  - now destruct (list_eq_dec N.eq_dec x x).
  - now destruct (H x).
Qed.
Lemma op_some w o v : fst (op w (Some v) o) = Some v.
Proof. destruct o; reflexivity. Qed.
Lemma settles_dec w o : (exists v, settles w o v) \/ forall v, ~ settles w o v.
Proof. destruct o as [[| |[x|]]|x]; cbn [settles]; eauto. Qed.
Lemma settles_fun w o u v : settles w o u -> settles w o v -> u = v.
Proof. destruct o as [[| |[x|]]|x]; cbn [settles]; congruence || tauto. Qed.
Lemma which_dec (a b : N * Which) : {a = b} + {a <> b}.
Proof. repeat decide equality. Qed.

(** The cell after the operations is what they settled *)
Lemma cell_settled l : forall c rs, ops fresh l = (c, rs) -> forall t w,
  (forall v, c t w = Some v -> settled l t w v) /\ (c t w = None -> unsettled l t w).
Proof.
  induction l as [|x l IH] using rev_ind; intros c rs R t w.
  - cbn in R. injection R as <- <-. split; [discriminate|]. intros _ ? ? [].
  - rewrite ops_app in R. destruct (ops fresh l) as [c1 r1]. destruct x as [[u z] o]. cbn [ops] in R.
    destruct (op z (c1 u z) o) as [y r] eqn:O. injection R as <- <-. specialize (IH c1 r1 eq_refl t w). destruct IH as (A & B).
    destruct (which_dec (t, w) (u, z)) as [[= -> ->]|N].
    + rewrite put_same. destruct (c1 u z) as [v0|] eqn:C.
      * pose proof (op_some z o v0) as S. rewrite O in S. cbn [fst] in S. subst y. split; [|discriminate]. intros v [= <-].
        destruct (A v0 eq_refl) as (a & o' & b & -> & S & F). exists a, o', (b ++ [(u, z, o)]). split; [now rewrite <- app_assoc|]. auto.
      * specialize (B eq_refl). destruct (settles_dec z o) as [(v & S)|S].
        -- rewrite (proj1 (op_none z o) v S) in O. injection O as <- <-. split; [|discriminate]. intros v' [= <-]. exists l, o, []. auto.
        -- rewrite (proj2 (op_none z o) S) in O. injection O as <- <-. split; [discriminate|]. intros _ q y' X E. apply in_app_or in X.
           destruct X as [X|[<-|[]]]; [now apply B|apply S].
    + rewrite put_other by exact N. split.
      * intros v V. destruct (A v V) as (a & o' & b & -> & S & F). exists a, o', (b ++ [(u, z, o)]). split; [now rewrite <- app_assoc|]. auto.
      * intros V q y' X E. apply in_app_or in X. destruct X as [X|[<-|[]]]; [now apply B|]. unfold same in E. cbn [fst] in E. congruence.
Qed.
Lemma settled_not l t w v : settled l t w v -> ~ unsettled l t w.
Proof. intros (a & o & b & -> & S & _) U. apply (U (t, w, o) v); [apply in_or_app; right; now left|reflexivity|exact S]. Qed.
Lemma settled_fun l t w u v : settled l t w u -> settled l t w v -> u = v.
Proof.
  intros (a & o & b & E & S & F) (a' & o' & b' & E' & S' & F'). subst l. revert a' E' F'.
  induction a as [|x a IH]; intros [|y a'] E F'.
  - injection E as -> ->. now apply (settles_fun w o').
  - injection E as <- E. destruct (F' (t, w, o) u); [now left|reflexivity|exact S].
  - injection E as -> E. destruct (F (t, w, o') v); [now left|reflexivity|exact S'].
  - injection E as <- E. apply (IH (fun x0 y0 I => F x0 y0 (or_intror I)) a' E). intros x0 y0 I. apply (F' x0 y0). now right.
Qed.
Lemma next_result l c rs t w o : ops fresh l = (c, rs) -> snd (ops fresh (l ++ [(t, w, o)])) = rs ++ [snd (op w (c t w) o)].
Proof. intros R. rewrite ops_app, R. cbn [ops]. now destruct (op w (c t w) o). Qed.
Lemma cell_is l c rs t w v : ops fresh l = (c, rs) -> settled l t w v -> c t w = Some v.
Proof.
  intros R S. destruct (cell_settled l c rs R t w) as (A & B). destruct (c t w) as [x|]; [|now destruct (settled_not l t w v S (B eq_refl))].
  f_equal. exact (settled_fun l t w x v (A x eq_refl) S).
Qed.

(** Once settled: read as that, and set to that only *)
Theorem C104_settled l t w v : settled l t w v ->
  (forall x, snd (ops fresh (l ++ [(t, w, Read x)])) = snd (ops fresh l) ++ [Ok v]) /\
  (forall y, snd (ops fresh (l ++ [(t, w, Set_ y)])) = snd (ops fresh l) ++ [if list_eq_dec N.eq_dec y v then Ok v else Panic]) /\
  (forall m, settled (l ++ m) t w v).
Proof.
  intros S. destruct (ops fresh l) as [c rs] eqn:R. pose proof (cell_is l c rs t w v R S) as C. split; [|split].
  - intros x. rewrite (next_result l c rs t w _ R), C. reflexivity.
  - intros y. rewrite (next_result l c rs t w _ R), C. cbn [op get_or_init snd].
    destruct (list_eq_dec N.eq_dec v y) as [->|N]; destruct (list_eq_dec N.eq_dec y _); try reflexivity; congruence.
  - intros m. destruct S as (a & o & b & -> & S & F). exists a, o, (b ++ m). split; [now rewrite <- app_assoc|]. auto.
Qed.
(** Before: the operation settles it and gives what it is settled to, or panics and settles nothing *)
Theorem C104_unsettled l t w o : unsettled l t w ->
  (forall v, settles w o v -> snd (ops fresh (l ++ [(t, w, o)])) = snd (ops fresh l) ++ [Ok v] /\ settled (l ++ [(t, w, o)]) t w v) /\
  ((forall v, ~ settles w o v) -> snd (ops fresh (l ++ [(t, w, o)])) = snd (ops fresh l) ++ [Panic] /\ unsettled (l ++ [(t, w, o)]) t w).
Proof.
  intros U. destruct (ops fresh l) as [c rs] eqn:R. destruct (cell_settled l c rs R t w) as (A & _).
  assert (C : c t w = None) by (destruct (c t w) as [x|]; [now destruct (settled_not l t w x (A x eq_refl) U)|reflexivity]).
  rewrite (next_result l c rs t w o R), C. split.
  - intros v S. rewrite (proj1 (op_none w o) v S). split; [reflexivity|]. exists l, o, []. auto.
  - intros S. rewrite (proj2 (op_none w o) S). split; [reflexivity|]. intros q y X E. apply in_app_or in X. destruct X as [X|[<-|[]]]; [now apply U|apply S].
Qed.
(** It is one or the other *)
Theorem C104_either l t w : (exists v, settled l t w v) \/ unsettled l t w.
Proof.
  destruct (ops fresh l) as [c rs] eqn:R. destruct (cell_settled l c rs R t w) as (A & B).
  destruct (c t w) as [v|]; [left; exists v; now apply A|right; now apply B].
Qed.
(** A default that was only read can no longer be set to another *)
Theorem C104_read_settles l t w x y : unsettled l t w -> settles w (Read x) y ->
  forall v, v <> y -> snd (ops fresh (l ++ [(t, w, Read x); (t, w, Set_ v)])) = snd (ops fresh l) ++ [Ok y; Panic].
Proof.
  intros U S v N. destruct (proj1 (C104_unsettled l t w (Read x) U) y S) as (E & T).
  change [(t, w, Read x); (t, w, Set_ v)] with ([(t, w, Read x)] ++ [(t, w, Set_ v)]). rewrite app_assoc.
  rewrite (proj1 (proj2 (C104_settled _ t w y T)) v), E. destruct (list_eq_dec N.eq_dec v y); [congruence|]. now rewrite <- app_assoc.
Qed.
Example C104_ex :
  let l := [(1, Group, Read NotText); (2, Group, Set_ [7]); (1, Domain, Read NotPresent); (1, Group, Read (Text (Some [5]))); (1, Group, Read NotPresent); (1, Group, Set_ [7])] in
  snd (ops fresh l) = [Panic; Ok [7]; Ok (repeat 0 16); Ok [5]; Ok [5]; Panic] /\ settled l 1 Group [5] /\ settled l 2 Group [7] /\ unsettled l 2 Domain.
Proof.
  intros l. split; [reflexivity|]. split; [|split].
  - exists [(1, Group, Read NotText); (2, Group, Set_ [7]); (1, Domain, Read NotPresent)], (Read (Text (Some [5]))), [(1, Group, Read NotPresent); (1, Group, Set_ [7])].
    split; [reflexivity|]. split; [reflexivity|]. intros x y [<-|[<-|[<-|[]]]] E; [intros []|discriminate E|discriminate E].
  - exists [(1, Group, Read NotText)], (Set_ [7]), (tl (tl l)). split; [reflexivity|]. split; [reflexivity|]. intros x y [<-|[]] E; discriminate E.
  - intros x y X E. unfold l in X. cbn [In] in X. repeat (destruct X as [<-|X]; [discriminate E|]). destruct X.
Qed.
Print Assumptions C104_settled.
Print Assumptions C104_unsettled.
Print Assumptions C104_either.
Print Assumptions C104_read_settles.
Print Assumptions C104_ex.
