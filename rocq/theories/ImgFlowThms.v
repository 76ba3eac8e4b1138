(** C94, first part: the order of the rows of diagrams does not matter, neither
    in training nor afterwards. *)
From Coq Require Import Reals Permutation Lra.
From Verif Require Import Np NpFacts Fl FlFacts Nd DiagTypes DiagModel DiagSpec VecModel VecSpec VecProofs VecProofs4 VecThms RNp MetricSpec
  FeatModel FeatSpec FeatProofs FeatThms FlowThms ImgSpec ImgSymSpec ImgFlowSpec.
Open Scope Z_scope.

Lemma perm_filter {A} (f : A -> bool) l l' : Permutation l l' -> Permutation (filter f l) (filter f l').
Proof.
  induction 1 as [|a l l' P IH|a b l|l l' l'' P IH Q IH']; cbn [filter]; auto.
  - destruct (f a); auto.
  - destruct (f a), (f b); auto. constructor.
  - now transitivity (filter f l').
Qed.
Lemma perm_zlen {A} (l l' : list A) : Permutation l l' -> zlen l = zlen l'.
Proof. intro P. unfold zlen. now rewrite (Permutation_length P). Qed.
Lemma rows_perm q (x x' : diagram) : Permutation x x' -> Permutation (rows_of q x) (rows_of q x').
Proof. apply perm_filter. Qed.
Lemma points_perm q x x' : Permutation x x' -> Permutation (points_of q x) (points_of q x').
Proof. intro P. unfold points_of. now apply Permutation_map, rows_perm. Qed.
Lemma off_perm q x x' : Permutation x x' -> same_off_diagonal (points_of q x) (points_of q x').
Proof. intro P. apply perm_filter. now apply points_perm. Qed.

Lemma reordered_sym X X' : reordered X X' -> reordered X' X.
Proof. intro F. induction F; constructor; auto. now symmetry. Qed.
Lemma reordered_in X X' x : reordered X X' -> In x X -> exists x', In x' X' /\ Permutation x x'.
Proof.
  intro F. induction F as [|a b X X' P F IH]; intros []; [subst; exists b; split; [now left|auto]|].
  destruct (IH H) as (x' & I & Q). exists x'. split; [now right|auto].
Qed.
Lemma reordered_finite X X' : reordered X X' -> finite_points X -> finite_points X'.
Proof.
  intros F H x p Ix Ip. destruct (reordered_in X' X x (reordered_sym _ _ F) Ix) as (y & Iy & P). apply (H y); auto. now apply (Permutation_in p P).
Qed.
Lemma reordered_balanced q X X' : reordered X X' -> balanced q X -> balanced q X'.
Proof.
  intros F [n H]. exists n. intros x Ix. destruct (reordered_in X' X x (reordered_sym _ _ F) Ix) as (y & Iy & P).
  rewrite <- (H y Iy). apply perm_zlen. now apply rows_perm.
Qed.
Lemma reordered_hd X X' : reordered X X' -> Permutation (hd [] X) (hd [] X').
Proof. intro F. destruct F; cbn; auto. Qed.
Lemma reordered_dims q X X' : reordered X X' -> In q (map pq (hd [] X)) <-> In q (map pq (hd [] X')).
Proof.
  intro F. assert (P : Permutation (map pq (hd [] X)) (map pq (hd [] X'))) by (apply Permutation_map, reordered_hd, F).
  split; apply Permutation_in; auto. now symmetry.
Qed.
Lemma reordered_trainable X X' : reordered X X' -> trainable X -> trainable X'.
Proof.
  intros F (H1 & H2 & H3). split; [|split].
  - intro E. apply H1. pose proof (reordered_hd X X' F) as P. rewrite E in P. symmetry in P. now apply Permutation_nil in P.
  - now apply (reordered_finite X).
  - intros q I. apply (reordered_dims q X X' F) in I. destruct (H3 q I) as [N B]. split; auto. now apply (reordered_balanced q X).
Qed.
Lemma reordered_transformable X X' Y Y' : reordered X X' -> reordered Y Y' ->
  transformable (map pq (hd [] X)) Y -> transformable (map pq (hd [] X')) Y'.
Proof.
  intros F G (H1 & H2 & H3). split; [|split].
  - destruct G; easy.
  - now apply (reordered_finite Y).
  - intros q I. apply (reordered_balanced q Y); auto. apply H3. now apply (reordered_dims q X X' F).
Qed.
Lemma reordered_dimensions X X' d d' : reordered X X' -> dimensions_of X d -> dimensions_of X' d' -> d = d'.
Proof.
  intros F [H1 H2] [H1' H2']. apply increasing_unique; auto. intro q. rewrite H2, H2'. now apply reordered_dims.
Qed.
Lemma reordered_coordinate q X X' v : reordered X X' -> coordinate q X v -> coordinate q X' v.
Proof.
  intros F (x & p & Ix & Ip & E). destruct (reordered_in X X' x F Ix) as (y & Iy & P). exists y, p. split; auto. split; auto.
  apply (Permutation_in p (rows_perm q x y P) Ip).
Qed.
Lemma least_same v w (P Q : Qc -> Prop) : (forall x, P x <-> Q x) -> is_least v P -> is_least w Q -> v = w.
Proof. intros E [A B] [C D]. apply E in C. apply E in A. apply Qcle_antisym; auto. Qed.
Lemma greatest_same v w (P Q : Qc -> Prop) : (forall x, P x <-> Q x) -> is_greatest v P -> is_greatest w Q -> v = w.
Proof. intros E [A B] [C D]. apply E in C. apply E in A. apply Qcle_antisym; auto. Qed.
Lemma grid_same lo hi n s t u v : is_grid lo hi n s t -> is_grid lo hi n u v -> 1 <= n -> (s, t) = (u, v).
Proof.
  intros (L & Z0 & O & M) (L' & Z0' & O' & M') Hn. destruct (Z.eq_dec n 1) as [->|N].
  - rewrite O, O' by auto. f_equal. apply Znth_ext; [congruence|]. intros i B. assert (i = 0) as -> by lia. congruence.
  - destruct (M ltac:(lia)) as (-> & _ & K). destruct (M' ltac:(lia)) as (-> & _ & K'). f_equal.
    apply Znth_ext; [congruence|]. intros i B. rewrite K, K' by lia. reflexivity.
Qed.
Lemma fitted_grids_same n X X' g g' : 1 <= n -> reordered X X' -> fitted_grids n X g -> fitted_grids n X' g' -> g = g'.
Proof.
  intros Hn F [D G] [D' G']. pose proof (reordered_dimensions X X' _ _ F D D') as E.
  assert (C : forall q v, coordinate q X v <-> coordinate q X' v) by (intros; split; apply reordered_coordinate; auto; now apply reordered_sym).
  rewrite E in G. revert E G G'. generalize (map fst g') at 2 3 as ds. clear D D'. intro ds. revert g'.
  induction g as [|[q [s t]] g IH]; intros [|[q' [s' t']] g'] E G G'; cbn in E; try easy. injection E as <- E. f_equal.
  - f_equal. destruct (G q s t (or_introl eq_refl)) as (lo & hi & (L & m & M & H) & R). destruct (G' q s' t' (or_introl eq_refl)) as (lo' & hi' & (L' & m' & M' & H') & R').
    assert (lo = lo') as <- by (apply (least_same _ _ _ _ (C q) L L')). assert (m = m') as <- by (apply (greatest_same _ _ _ _ (C q) M M')).
    assert (hi = hi') as <-.
    { destruct H as [[A ->]|[A B]], H' as [[A' ->]|[A' B']]; try easy. assert (CA : forall x, (exists q', In q' ds /\ coordinate q' X x) <-> (exists q', In q' ds /\ coordinate q' X' x)) by (intro x; split; intros (q' & I & J); exists q'; split; auto; now apply C). exact (greatest_same _ _ _ _ CA B B'). }
    now apply (grid_same lo hi n).
  - apply IH; auto; intros; [apply G|apply G']; now right.
Qed.

(** The order of the rows of the diagrams, in training and afterwards, does not
    matter for these features. *)
Theorem features_ignore_row_order :
  forall X X' Y Y' n_jobs n_jobs',
    reordered X X' -> reordered Y Y' -> trainable X -> transformable (map pq (hd [] X)) Y -> 1 <= n_jobs -> 1 <= n_jobs' ->
    (forall normalize fill, persistence_entropy normalize fill n_jobs X Y = persistence_entropy normalize fill n_jobs' X' Y') /\
    number_of_points n_jobs X Y = number_of_points n_jobs' X' Y' /\
    (forall n_bins, 1 <= n_bins -> betti_curve n_bins n_jobs X Y = betti_curve n_bins n_jobs' X' Y') /\
    (forall partition n_layers n_bins, is_partition partition -> 1 <= n_layers -> 1 <= n_bins ->
       persistence_landscape partition n_layers n_bins n_jobs X Y = persistence_landscape partition n_layers n_bins n_jobs' X' Y').
Proof.
  intros X X' Y Y' n n' FX FY HT HY HJ HJ'. pose proof (reordered_trainable _ _ FX HT) as HT'.
  pose proof (reordered_transformable X X' Y Y' FX FY HY) as HYX'.
  assert (HX : reordered X X) by (clear; induction X; constructor; auto).
  pose proof (reordered_transformable X X Y Y' HX FY HY) as HY'.
  assert (S : Forall2 (fun y y' => forall q, same_off_diagonal (points_of q y) (points_of q y')) Y Y').
  { clear - FY. induction FY as [|y y' Y Y' P F IH]; constructor; auto. intro. now apply off_perm. }
  assert (S' : Forall2 (fun y y' => forall q, (points_of q y = [] <-> points_of q y' = []) /\ same_off_diagonal (points_of q y) (points_of q y')) Y Y').
  { clear - FY. induction FY as [|y y' Y Y' P F IH]; constructor; auto. intro q. split; [|now apply off_perm]. pose proof (points_perm q _ _ P) as Q.
    split; intro E; rewrite E in Q; [now apply Permutation_nil in Q|symmetry in Q; now apply Permutation_nil in Q]. }
  split; [|split; [|split]].
  - intros normalize fill. rewrite (persistence_entropy_ignores_diagonal normalize fill n n' X Y Y') by auto.
    destruct (entropy_map normalize fill X HT) as (d & D & E). destruct (entropy_map normalize fill X' HT') as (d' & D' & E').
    rewrite E, E' by auto. now rewrite (reordered_dimensions X X' d d' FX D D').
  - rewrite (number_of_points_ignores_diagonal n n' X Y Y') by auto.
    destruct (number_of_points_ok X HT) as (d & D & E). destruct (number_of_points_ok X' HT') as (d' & D' & E').
    rewrite E, E' by auto. now rewrite (reordered_dimensions X X' d d' FX D D').
  - intros b Hb. rewrite (betti_curve_ignores_diagonal b n n' X Y Y') by auto.
    destruct (betti_curve_spec b X Hb HT) as (g & D & E). destruct (betti_curve_spec b X' Hb HT') as (g' & D' & E').
    rewrite E, E' by auto. now rewrite (fitted_grids_same b X X' g g' Hb FX D D').
  - intros part l b HP Hl Hb. rewrite (persistence_landscape_ignores_diagonal part l b n n' X Y Y') by auto.
    destruct (persistence_landscape_ok part l b X HP Hl Hb HT) as (g & D & E). destruct (persistence_landscape_ok part l b X' HP Hl Hb HT') as (g' & D' & E').
    rewrite E, E' by auto. now rewrite (fitted_grids_same b X X' g g' Hb FX D D').
Qed.

Print Assumptions features_ignore_row_order.
