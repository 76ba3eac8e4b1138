(** Theorems for C91: the image filtrations commute with reflections and axis
    permutations, are monotone in the set of activated pixels, and change by at
    most one from a pixel to its neighbour. *)
From Coq Require Import Reals Lra Permutation.
From Verif Require Import Np NpFacts Nd NdFacts RNp ImgModel ImgModel2 ImgSpec ImgSpec2 ImgProofs ImgProofs2 ImgThms ImgThms2 ImgSymSpec.
Open Scope Z_scope.

(** *** reflections and axis permutations are symmetries of the grid *)
Lemma flip_inside k : forall s p, inside s p = true -> inside s (flip k s p) = true.
Proof.
  induction k as [|k IH]; intros [|n s] [|i p] H; try exact H; rewrite inside_cons in H; destruct H as [H1 H2]; cbn [flip]; rewrite inside_cons.
  - split; [lia|assumption].
  - split; [assumption|now apply IH].
Qed.
Lemma flip_invol k : forall s p, flip k s (flip k s p) = p.
Proof.
  induction k as [|k IH]; intros [|n s] [|i p]; try reflexivity; cbn [flip].
  - f_equal. lia.
  - f_equal. apply IH.
Qed.
Lemma flip_taxicab k : forall s p q, length p = length s -> length q = length s -> taxicab (flip k s p) (flip k s q) = taxicab p q.
Proof.
  induction k as [|k IH]; intros [|n s] [|i p] [|j q] L L'; try discriminate; try reflexivity; cbn [flip taxicab].
  - f_equal. lia.
  - f_equal. cbn [length] in *. apply IH; lia.
Qed.
Theorem reflection_is_symmetry k s : grid_symmetry s s (flip k s).
Proof.
  split; [split; [apply Permutation_refl|split; [apply flip_inside|split]]|].
  - intros p q _ _ E. rewrite <- (flip_invol k s p), E. apply flip_invol.
  - intros q I. exists (flip k s q). split; [now apply flip_inside|apply flip_invol].
  - intros p q I J. apply flip_taxicab; now apply inside_length.
Qed.

Lemma inside_nth s : forall p, inside s p = true <-> length p = length s /\ forall k, (k < length s)%nat -> 0 <= nth k p 0 < nth k s 0.
Proof.
  induction s as [|n s IH]; intros [|i p].
  - split; [intros _; split; [reflexivity|cbn [length]; lia]|reflexivity].
  - split; [discriminate|intros [L _]; discriminate].
  - split; [discriminate|intros [L _]; discriminate].
  - rewrite inside_cons, IH. cbn [length]. split.
    + intros [H [L H']]. split; [lia|]. intros [|k] Hk; [exact H|]. cbn [nth]. apply H'. lia.
    + intros [L H]. split; [apply (H O); lia|]. split; [lia|]. intros k Hk. apply (H (S k)). lia.
Qed.
Lemma list_nths {A} (d : A) (l : list A) : l = map (fun k => nth k l d) (seq 0 (length l)).
Proof.
  induction l as [|x l IH]; [reflexivity|]. cbn [length seq map nth]. f_equal. rewrite <- seq_shift, map_map. exact IH.
Qed.
Lemma taxicab_sum p : forall q, length p = length q -> taxicab p q = fold_right Z.add 0 (map (fun k => Z.abs (nth k p 0 - nth k q 0)) (seq 0 (length p))).
Proof.
  induction p as [|i p IH]; intros [|j q] L; try discriminate; [reflexivity|]. cbn [taxicab length seq map fold_right nth]. f_equal.
  cbn [length] in L. rewrite IH by lia. rewrite <- seq_shift, map_map. reflexivity.
Qed.
Lemma sum_perm l l' : Permutation l l' -> fold_right Z.add 0 l = fold_right Z.add 0 l'.
Proof. induction 1; cbn [fold_right]; lia. Qed.
Lemma nth_reorder a p i : (i < length a)%nat -> nth i (reorder a p) 0 = nth (nth i a O) p 0.
Proof.
  intros H. unfold reorder. rewrite (nth_indep _ 0 (nth O p 0)) by (now rewrite map_length). exact (map_nth (fun k => nth k p 0) a O i).
Qed.
Lemma choice_list {A B} (R : A -> B -> Prop) l : (forall x, In x l -> exists y, R x y) -> exists m, Forall2 R l m.
Proof.
  induction l as [|x l IH]; intros H; [exists []; constructor|]. destruct (H x (or_introl eq_refl)) as [y Hy]. destruct IH as [m Hm]; [intros z Hz; apply H; now right|].
  exists (y :: m). now constructor.
Qed.
Lemma Forall2_nth' {A B} (R : A -> B -> Prop) l m a b : Forall2 R l m -> forall i, (i < length l)%nat -> R (nth i l a) (nth i m b).
Proof. induction 1 as [|x y l m H F IH]; intros i Hi; cbn [length] in Hi; [lia|]. destruct i; [exact H|]. cbn [nth]. apply IH. lia. Qed.

Theorem axis_permutation_is_symmetry a s : Permutation a (seq 0 (length s)) -> grid_symmetry s (reorder a s) (reorder a).
Proof.
  intros P. pose proof (Permutation_length P) as L. rewrite seq_length in L.
  assert (HI : forall k, In k a <-> (k < length s)%nat).
  { intros k. rewrite (Permutation_in' (eq_refl k) P), in_seq. lia. }
  assert (ND : NoDup a) by (apply (Permutation_NoDup (Permutation_sym P)), seq_NoDup).
  assert (LR : forall q : list Z, length (reorder a q) = length s) by (intros; unfold reorder; now rewrite map_length).
  split; [split; [|split; [|split]]|].
  - rewrite (list_nths 0 s) at 1. apply Permutation_map. now apply Permutation_sym.
  - intros p H. apply inside_nth in H. destruct H as [Lp H]. apply inside_nth. split; [now rewrite !LR|]. intros k Hk. rewrite LR in Hk.
    rewrite !nth_reorder by lia. apply H. apply HI. apply nth_In. lia.
  - intros p q I J E. apply inside_length in I. apply inside_length in J. apply (nth_ext _ _ 0 0); [lia|]. intros k Hk.
    assert (K : In k a) by (apply HI; lia). apply (In_nth _ _ O) in K. destruct K as [i [Hi <-]]. rewrite <- !nth_reorder by assumption. now rewrite E.
  - intros q I. apply inside_nth in I. destruct I as [Lq I]. rewrite LR in Lq, I.
    destruct (choice_list (fun k v => exists i, (i < length a)%nat /\ nth i a O = k /\ v = nth i q 0) (seq 0 (length s))) as [p F].
    { intros k Hk. apply in_seq in Hk. assert (K : In k a) by (apply HI; lia). apply (In_nth _ _ O) in K. destruct K as [i [Hi E]]. exists (nth i q 0), i. auto. }
    pose proof (Forall2_length _ _ _ F) as Lp. rewrite seq_length in Lp.
    assert (V : forall i, (i < length a)%nat -> nth (nth i a O) p 0 = nth i q 0).
    { intros i Hi. assert (K : (nth i a O < length s)%nat) by (apply HI, nth_In; assumption).
      destruct (Forall2_nth' _ _ _ O 0 F (nth i a O)) as [j [Hj [E ->]]]; [now rewrite seq_length|]. rewrite seq_nth in E by assumption. cbn [Nat.add] in E.
      f_equal. now apply (proj1 (NoDup_nth a O) ND). }
    exists p. split.
    + apply inside_nth. split; [lia|]. intros k Hk. assert (K : In k a) by (apply HI; lia). apply (In_nth _ _ O) in K. destruct K as [i [Hi <-]].
      rewrite V by assumption. rewrite <- nth_reorder by assumption. apply I. lia.
    + apply (nth_ext _ _ 0 0); [rewrite LR; lia|]. intros i Hi. rewrite LR in Hi. rewrite nth_reorder by lia. apply V. lia.
  - intros p q I J. apply inside_length in I. apply inside_length in J. rewrite (taxicab_sum (reorder a p)), (taxicab_sum p) by (rewrite ?LR; lia). rewrite LR, I.
    rewrite <- L at 1. transitivity (fold_right Z.add 0 (map (fun k => Z.abs (nth k p 0 - nth k q 0)) a)).
    + f_equal. symmetry. rewrite (list_nths O a) at 1. rewrite map_map. apply map_ext_in. intros i Hi. apply in_seq in Hi. rewrite !nth_reorder by lia. reflexivity.
    + apply sum_perm. now apply Permutation_map.
Qed.

(** *** closest pixels along a symmetry *)
Section Moved.
Context (s s' : list Z) (sigma : list Z -> list Z).
Lemma moved_get {A} (y y' : nd A) : grid_bijection s s' sigma -> moved s s' sigma y y' -> forall p, inside s p = true -> nget y' (sigma p) = nget y p.
Proof. intros _ [_ [_ M]] p I. destruct (M p I) as [v [E E']]. congruence. Qed.
Lemma moved_closest y y' c p d : grid_symmetry s s' sigma -> moved s s' sigma y y' -> inside s p = true ->
  (closest y c p d <-> closest y' c (sigma p) d).
Proof.
  intros [B T] M I. pose proof (moved_get y y' B M) as G. destruct M as [S [S' _]]. destruct B as [_ [B1 [_ B2]]].
  assert (K : forall j, nget y j = Some c -> inside s j = true) by (intros j H; apply at_inside in H; congruence).
  assert (K' : forall j, nget y' j = Some c -> inside s' j = true) by (intros j H; apply at_inside in H; congruence).
  split; intros [[j [E D]] C].
  - split.
    + exists (sigma j). rewrite G by auto. split; [assumption|]. rewrite T by auto. exact D.
    + intros j' H. destruct (B2 j' (K' j' H)) as [i [Ii <-]]. rewrite G in H by assumption. rewrite T by assumption. now apply C.
  - destruct (B2 j (K' j E)) as [i [Ii <-]]. rewrite G in E by assumption. rewrite T in D by assumption. split; [now exists i|].
    intros i' H. rewrite <- T by auto. apply C. rewrite G by auto. exact H.
Qed.
Lemma moved_none (y y' : nd Z) c : grid_bijection s s' sigma -> moved s s' sigma y y' -> (none y c <-> none y' c).
Proof.
  intros B M. pose proof (moved_get y y' B M) as G. destruct M as [S [S' _]]. destruct B as [_ [B1 [_ B2]]]. split; intros N j H.
  - destruct (B2 j) as [i [Ii <-]]; [apply at_inside in H; congruence|]. rewrite G in H by assumption. exact (N i H).
  - apply (N (sigma j)). rewrite G; [exact H|]. apply at_inside in H. congruence.
Qed.
End Moved.
Lemma closest_or_none x c p : c = 0 \/ c = 1 -> inside (nshape x) p = true -> none x c \/ exists d, 0 <= d /\ closest x c p d.
Proof.
  assert (G : forall x, inside (nshape x) p = true -> none x 1 \/ exists d, 0 <= d /\ closest x 1 p d).
  { clear x. intros x I. destruct (near_dec x (total_size (nshape x)) p) as [N|N].
    - right. destruct (near_closest _ _ _ N) as [d [D C]]. exists d. split; [lia|assumption].
    - left. intros j Hj. apply N. exists j. split; [assumption|]. pose proof (at_inside _ _ _ Hj) as IJ.
      destruct (nshape x) as [|n t] eqn:E; [destruct p, j; try discriminate; cbn; lia|]. rewrite <- E in *.
      pose proof (taxicab_bound _ p j I IJ ltac:(congruence)). lia. }
  intros [->| ->] I; [|now apply G]. destruct (G (logical_not x) I) as [N|[d [D C]]]; [left; now apply none_not|right]. exists d. split; [assumption|]. now apply closest_not.
Qed.
