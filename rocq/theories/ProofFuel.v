(** The bound on the steps of a tree query does not change its result. *)
From Verif Require Import Bytes ModelTree ModelTestSet ModelStore ModelPred ModelQuery.

Lemma pointer_more t asc k lb : forall f f' at_ r, (f <= f')%nat -> set_pointer_at_match f t asc k lb at_ = r -> r <> OutOfFuel -> set_pointer_at_match f' t asc k lb at_ = r.
Proof.
  induction f as [|f IH]; intros f' at_ r L E N; [cbn in E; congruence|]. destruct f' as [|f']; [lia|]. cbn [set_pointer_at_match] in *.
  destruct (key_status k (fst at_)) as [s| | |]; cbn [obind] in *; try exact E. destruct (all_in_set s).
  - destruct (next_stamp_match _ _ _); [exact E|]. destruct (set_range t asc _); [|exact E]. apply IH; [lia|exact E|exact N].
  - destruct (jump_key k lb s) as [[j|]| | |]; cbn [obind] in *; try exact E. destruct (set_range t asc j); [|exact E]. apply IH; [lia|exact E|exact N].
Qed.
Lemma scope_more t asc k lb f f' c r : (f <= f')%nat -> next_scope f t asc k lb c = r -> r <> OutOfFuel -> next_scope f' t asc k lb c = r.
Proof. unfold next_scope. destruct c; [|auto]. destruct (get_next_range _ _ _); [|auto]. apply pointer_more. Qed.
Lemma walk_more t asc k lb p stale f f' : (f <= f')%nat -> forall n n' ptr c y r, (n <= n')%nat ->
  walk f t asc k lb p stale n ptr c y = r -> r <> OutOfFuel -> walk f' t asc k lb p stale n' ptr c y = r.
Proof.
  intros LF. induction n as [|n IH]; intros n' ptr c y r L E N; [cbn in E; congruence|]. destruct n' as [|n']; [lia|]. cbn [walk] in *.
  destruct (match ptr with Some e => (Some e, c) | None => next_entry t asc k stale c end) as [item c1]. destruct item as [e|].
  - destruct (entry_ok p e); [|apply IH; [lia|exact E|exact N]]. destruct (member_next 32 (p_limits p QBranch) y) as [[[|]|] y'].
    + destruct (match member_peek 32 (p_limits p QBranch) y' with None => next_entry t asc k stale c1 | Some _ => (None, c1) end) as [ptr2 c2].
      destruct (walk f t asc k lb p stale n ptr2 c2 y') as [x|x| |] eqn:W; cbn [obind] in E; try congruence;
        (rewrite (IH n' ptr2 c2 y' _ ltac:(lia) W ltac:(discriminate))); exact E.
    + apply IH; [lia|exact E|exact N].
    + destruct (next_scope f t asc k lb c1) as [x|x| |] eqn:W; cbn [obind] in E; try congruence;
        (rewrite (scope_more t asc k lb f f' c1 _ LF W ltac:(discriminate))); cbn [obind]; [|exact E..]. apply IH; [lia|exact E|exact N].
  - destruct (next_scope f t asc k lb c1) as [x|x| |] eqn:W; cbn [obind] in E; try congruence;
      (rewrite (scope_more t asc k lb f f' c1 _ LF W ltac:(discriminate))); cbn [obind]; [|exact E..]. destruct x; [|exact E]. apply IH; [lia|exact E|exact N].
Qed.
Lemma query_more f f' d tb asc p stale nth_ r : (f <= f')%nat -> query f d tb asc p stale nth_ = r -> r <> OutOfFuel -> query f' d tb asc p stale nth_ = r.
Proof.
  intros L E N. unfold query in *. destruct tb; try exact E. cbn [query_all] in *. unfold query_tree in *.
  destruct (query_tree_entries f (tree_t d) asc p stale) as [x|x| |] eqn:Q; cbn [obind] in E; try congruence.
  all: assert (query_tree_entries f' (tree_t d) asc p stale = query_tree_entries f (tree_t d) asc p stale) as Q2.
  1, 3, 5: unfold query_tree_entries in *; destruct (member_peek 32 (p_limits p QBranch) 0); [|reflexivity];
    destruct (compile_tree_keys p asc) as [k| | |]; cbn [obind] in *; try reflexivity; try discriminate Q;
    destruct (lower_bound k) as [lb| | |]; cbn [obind] in *; try reflexivity; try discriminate Q;
    destruct (set_range (tree_t d) asc lb) as [at_|]; [|reflexivity];
    destruct (set_pointer_at_match f (tree_t d) asc k lb at_) as [y|y| |] eqn:SP; cbn [obind] in Q; try discriminate Q;
    (rewrite (pointer_more _ asc k lb f f' at_ _ L SP ltac:(discriminate))); cbn [obind]; try reflexivity;
    destruct y; [|reflexivity]; rewrite Q; apply (walk_more _ asc k lb p stale f f' L f f' _ _ _ _ L Q); discriminate.
  all: rewrite Q2, Q; exact E.
Qed.
(** Two runs that end have the same result. *)
Lemma query_unique f f' d tb asc p stale nth_ : query f d tb asc p stale nth_ <> OutOfFuel -> query f' d tb asc p stale nth_ <> OutOfFuel ->
  query f d tb asc p stale nth_ = query f' d tb asc p stale nth_.
Proof.
  intros A B. destruct (Nat.le_ge_cases f f') as [L|L].
  - symmetry. now apply (query_more f f').
  - now apply (query_more f' f).
Qed.
