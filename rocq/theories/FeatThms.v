(** Theorems about the scalar features: C27, C28, C29 (and C26, C31). *)
From Coq Require Import Reals Lra Permutation.
From Verif Require Import Np NpFacts Fl FlFacts DiagTypes DiagModel DiagSpec DiagProofs DiagProofs2
  VecModel VecSpec SliceFacts VecProofs VecProofs2 VecProofs3 VecProofs4 RNp RNormFacts MetricModel MetricSpec MetricProofs MetricProofs2 MetricProofs4
  FeatModel FeatSpec FeatProofs FeatProofs2 VecThms MetricThms.
Open Scope Z_scope.

(** ** C27: PersistenceEntropy. *)
Lemma entropy_map normalize fill X : trainable X ->
  exists dims, dimensions_of X dims /\
    forall n_jobs Y, 1 <= n_jobs -> transformable (map pq (hd [] X)) Y ->
    persistence_entropy normalize fill n_jobs X Y =
    Ok (map (fun y => map (fun q => persistence_entropy1 normalize fill (points_of q y)) dims) Y).
Proof.
  intros HT. destruct (first_dims_ok X HT) as [dims [E1 [Hd HD]]]. exists dims. split; [assumption|]. intros n_jobs Y HJ HY.
  unfold persistence_entropy. rewrite E1. cbn [bind]. apply (vectorise_ok _ (fun q y => persistence_entropy1 normalize fill (points_of q y))); try assumption.
  - apply HY.
  - intros q Hq. apply HY. now apply HD.
  - intros q xs Hq _ HI. f_equal. rewrite map_map. apply map_ext_in. intros y Hy. now rewrite (points_of_to_q q Y y (proj1 (proj2 HY)) (HI y Hy)).
Qed.

(** Fitting on X records its dimensions; the value for sample y and dimension q
    is the entropy in bits of the lifetimes of the off-diagonal points
    (divided by log2 of the total lifetime when normalize is set);
    nan_fill_value replaces it when every point is on the diagonal.  A
    subdiagram without any point gives 0. *)
Theorem persistence_entropy_spec normalize fill X :
  trainable X ->
  exists dims, dimensions_of X dims /\
    forall n_jobs Y, 1 <= n_jobs -> transformable (map pq (hd [] X)) Y ->
    exists V, persistence_entropy normalize fill n_jobs X Y = Ok V /\
      Forall2 (fun y row => Forall2 (fun q v =>
          (points_of q y <> [] -> is_entropy_value normalize fill (points_of q y) v) /\
          (points_of q y = [] -> v = XFin 0)) dims row) Y V.
Proof.
  intros HT. destruct (entropy_map normalize fill X HT) as [dims [HD E]]. exists dims. split; [assumption|]. intros n_jobs Y HJ HY.
  eexists. split; [now apply E|]. apply Forall2_map_right, Forall2_same. intros y Hy. apply Forall2_map_right, Forall2_same. intros q _. split.
  - intros N. apply entropy1_ok; [|assumption]. apply (proper_points q Y y); [apply HY|assumption].
  - intros ->. unfold persistence_entropy1, entropy2. cbn [map rsum].
    assert (EN : (if normalize then xdiv (XFin 0) (xlog2 0) else XFin 0) = XFin 0).
    { destruct normalize; [|reflexivity]. unfold xlog2. destruct (Req_EM_T 0 0); [reflexivity|lra]. }
    change (rsum []) with 0%R. rewrite EN. now destruct fill.
Qed.

(** Entropy lies between 0 and log2 of the number of off-diagonal points; it is
    0 only for a single point. *)
Theorem entropy_bounds (x : list (Qc * Qc)) :
  (forall p, In p x -> (fst p <= snd p)%Qc) -> off_diagonal x <> [] ->
  (0 <= shannon (lifetimes x) <= log2 (IZR (zlen (off_diagonal x))))%R /\
  (shannon (lifetimes x) = 0%R <-> zlen (off_diagonal x) = 1).
Proof.
  intros H N. assert (HP : positive (lifetimes x)) by (now apply lifetimes_positive). assert (N' : lifetimes x <> []) by (now rewrite lifetimes_nil).
  split; [split|].
  - now apply shannon_nonneg.
  - rewrite <- lifetimes_zlen. now apply shannon_le.
  - rewrite <- lifetimes_zlen. split.
    + intros E. destruct (lifetimes x) as [|l [|l' ls]] eqn:EL; [easy|reflexivity|]. pose proof (shannon_pos (l :: l' :: ls) HP) as P. rewrite E in P.
      exfalso. apply (Rlt_irrefl 0). apply P; [discriminate|].  rewrite !zlen_cons. pose proof (zlen_nonneg ls). lia.
    + intros E. destruct (lifetimes x) as [|l [|l' ls]] eqn:EL; [easy| |rewrite !zlen_cons in E; pose proof (zlen_nonneg ls); lia].
      now apply shannon_one.
Qed.

(** Without normalisation the result depends only on the relative lifetimes:
    not on the scale, the order of points or points on the diagonal, nor on
    n_jobs. *)
Lemma entropy1_scale fill x x' c : proper x -> proper x' -> (x = [] <-> x' = []) -> (0 < c)%R ->
  Permutation (lifetimes x') (map (fun l => c * l)%R (lifetimes x)) ->
  persistence_entropy1 false fill x = persistence_entropy1 false fill x'.
Proof.
  intros H H' EE Hc P. destruct x as [|p x0] eqn:EX; [destruct (proj1 EE eq_refl); reflexivity|]. rewrite <- EX in *.
  assert (N : x <> []) by (rewrite EX; discriminate). assert (N' : x' <> []) by (intros ->; apply N; now apply EE). clear p x0 EX EE.
  assert (ES : entropy2 (map lifetime x) = entropy2 (map lifetime x')).
  { destruct (off_diagonal x) as [|p l] eqn:EO.
    - assert (EL : lifetimes x = []) by (now apply lifetimes_nil). rewrite EL in P. apply Permutation_sym, Permutation_nil in P. apply lifetimes_nil in P.
      now rewrite !entropy2_nan.
    - assert (NO : off_diagonal x <> []) by (rewrite EO; discriminate). rewrite (entropy2_fin x H NO).
      assert (NO' : off_diagonal x' <> []).
      { intros E. apply lifetimes_nil in E. rewrite E in P. apply Permutation_nil in P. apply NO, lifetimes_nil. destruct (lifetimes x); [reflexivity|discriminate]. }
      rewrite (entropy2_fin x' H' NO'). f_equal. rewrite (shannon_perm _ _ P). symmetry. apply shannon_scale; [assumption|]. now apply lifetimes_positive. }
  unfold persistence_entropy1. now rewrite ES.
Qed.
Theorem persistence_entropy_scale_invariant fill n_jobs n_jobs' X Y Y' :
  1 <= n_jobs -> 1 <= n_jobs' -> trainable X ->
  transformable (map pq (hd [] X)) Y -> transformable (map pq (hd [] X)) Y' ->
  Forall2 (fun y y' => forall q,
     (points_of q y = [] <-> points_of q y' = []) /\
     exists c, (0 < c)%R /\
       Permutation (lifetimes (points_of q y')) (map (fun l => c * l)%R (lifetimes (points_of q y)))) Y Y' ->
  persistence_entropy false fill n_jobs X Y = persistence_entropy false fill n_jobs' X Y'.
Proof.
  intros HJ HJ' HT HY HY' F. destruct (entropy_map false fill X HT) as [dims [HD E]]. rewrite (E n_jobs Y HJ HY), (E n_jobs' Y' HJ' HY'). f_equal.
  eapply Forall2_map_eq; [|exact (Forall2_In2 _ _ _ F)]. intros y y' [Hy [Hy' A]]. cbn beta. apply map_ext. intros q. destruct (A q) as [EE [c [Hc P]]].
  apply (entropy1_scale fill _ _ c); auto; [apply (proper_points q Y y)|apply (proper_points q Y' y')]; auto; [apply HY|apply HY'].
Qed.

(** C26, C31: with or without normalisation, order, diagonal points and n_jobs
    do not matter (as long as there is a point at all). *)
Lemma entropy1_same normalize fill x x' : proper x -> proper x' -> (x = [] <-> x' = []) -> same_off_diagonal x x' ->
  persistence_entropy1 normalize fill x = persistence_entropy1 normalize fill x'.
Proof.
  intros H H' EE S. assert (P : Permutation (lifetimes x) (lifetimes x')) by (apply Permutation_map, S).
  assert (P1 : Permutation (lifetimes x') (map (fun l => 1 * l)%R (lifetimes x))).
  { rewrite (map_ext _ (fun l => l)), map_id by (intros; ring). now apply Permutation_sym. }
  assert (ET : rsum (map lifetime x) = rsum (map lifetime x')).
  { change lifetime with life. rewrite !sum_lifetimes. change total with rsum. now apply rsum_perm. }
  pose proof (entropy1_scale None x x' 1 H H' EE Rlt_0_1 P1) as ES. unfold persistence_entropy1 in ES. cbn beta iota zeta in ES.
  unfold persistence_entropy1. now rewrite ES, ET.
Qed.
Theorem persistence_entropy_ignores_diagonal normalize fill n_jobs n_jobs' X Y Y' :
  1 <= n_jobs -> 1 <= n_jobs' -> trainable X ->
  transformable (map pq (hd [] X)) Y -> transformable (map pq (hd [] X)) Y' ->
  Forall2 (fun y y' => forall q,
     (points_of q y = [] <-> points_of q y' = []) /\
     same_off_diagonal (points_of q y) (points_of q y')) Y Y' ->
  persistence_entropy normalize fill n_jobs X Y = persistence_entropy normalize fill n_jobs' X Y'.
Proof.
  intros HJ HJ' HT HY HY' F. destruct (entropy_map normalize fill X HT) as [dims [HD E]]. rewrite (E n_jobs Y HJ HY), (E n_jobs' Y' HJ' HY'). f_equal.
  eapply Forall2_map_eq; [|exact (Forall2_In2 _ _ _ F)]. intros y y' [Hy [Hy' A]]. cbn beta. apply map_ext. intros q. destruct (A q) as [EE S].
  apply entropy1_same; auto; [apply (proper_points q Y y)|apply (proper_points q Y' y')]; auto; [apply HY|apply HY'].
Qed.

(** Finding: normalised entropy is negative as soon as there are two points
    and the total lifetime is below 1. *)
Theorem normalized_entropy_nonnegative_refuted fill (x : list (Qc * Qc)) v :
  (forall p, In p x -> (fst p <= snd p)%Qc) -> 2 <= zlen (off_diagonal x) -> (total (lifetimes x) < 1)%R ->
  is_entropy_value true fill x v -> exists r, v = XFin r /\ (r < 0)%R.
Proof.
  intros H N L [_ [_ [A _]]]. assert (NO : off_diagonal x <> []) by (intros E; rewrite E in N; change (zlen (@nil (Qc * Qc))) with 0 in N; lia).
  assert (HP : positive (lifetimes x)) by (now apply lifetimes_positive). assert (N' : lifetimes x <> []) by (now rewrite lifetimes_nil).
  pose proof (positive_sum _ HP N') as HT. eexists. split; [apply A; auto; lra|].
  assert (HS : (0 < shannon (lifetimes x))%R) by (apply shannon_pos; auto; rewrite lifetimes_zlen; lia).
  assert (HL : (log2 (total (lifetimes x)) < 0)%R).
  { unfold log2. pose proof ln2_pos. assert (ln (total (lifetimes x)) < 0)%R by (rewrite <- ln_1; now apply ln_increasing).
    unfold Rdiv. apply Ropp_lt_cancel. rewrite Ropp_0, Ropp_mult_distr_l. apply Rmult_lt_0_compat; [lra|now apply Rinv_0_lt_compat]. }
  unfold Rdiv. apply Ropp_lt_cancel. rewrite Ropp_0, Ropp_mult_distr_r. apply Rmult_lt_0_compat; [assumption|]. pose proof (Rinv_lt_0_compat _ HL). lra.
Qed.
Example ex_normalized_negative : let x := [(0, qz 1 / qz 4); (0, qz 1 / qz 2); (1, 1)]%Qc in
  (forall p, In p x -> (fst p <= snd p)%Qc) /\ 2 <= zlen (off_diagonal x) /\ (total (lifetimes x) < 1)%R.
Proof.
  cbv zeta. split; [|split].
  - intros p [<-|[<-|[<-|[]]]]; vm_compute; discriminate.
  - vm_compute. discriminate.
  - assert (E : off_diagonal [(0, qz 1 / qz 4); (0, qz 1 / qz 2); (1, 1)]%Qc = [(0, qz 1 / qz 4); (0, qz 1 / qz 2)]%Qc).
    { unfold off_diagonal. cbn [filter fst snd]. replace (Qceqb 0 (qz 1 / qz 4)) with false by (vm_compute; reflexivity).
      replace (Qceqb 0 (qz 1 / qz 2)) with false by (vm_compute; reflexivity). replace (Qceqb 1 1) with true by (vm_compute; reflexivity). reflexivity. }
    unfold lifetimes. rewrite E. cbn [map total]. unfold life. cbn [fst snd]. rewrite Rplus_0_r, <- qr_add, <- qr_1. apply qr_lt. vm_compute. reflexivity.
Qed.
Example ex_entropy : exists dims V, dimensions_of (of_raw ex_raw) dims /\
  persistence_entropy false (Some (-1)%R) 2 (of_raw ex_raw) (of_raw ex_raw) = Ok V /\ zlen V = 2.
Proof.
  destruct (persistence_entropy_spec false (Some (-1)%R) _ ex_trainable) as [dims [HD H]]. destruct (H 2 (of_raw ex_raw) ltac:(lia) ex_transformable) as [V [E F]].
  exists dims, V. repeat split; try assumption; try apply HD. apply Forall2_zlen in F. rewrite <- F. reflexivity.
Qed.

(** ** C28: NumberOfPoints. *)
Theorem number_of_points_spec X :
  trainable X ->
  exists dims, dimensions_of X dims /\
    forall n_jobs Y, 1 <= n_jobs -> transformable (map pq (hd [] X)) Y ->
    number_of_points n_jobs X Y =
    Ok (map (fun y => map (fun q => zlen (off_diagonal (points_of q y))) dims) Y).
Proof. exact (number_of_points_ok X). Qed.
Theorem number_of_points_ignores_diagonal n_jobs n_jobs' X Y Y' :
  1 <= n_jobs -> 1 <= n_jobs' -> trainable X ->
  transformable (map pq (hd [] X)) Y -> transformable (map pq (hd [] X)) Y' ->
  Forall2 (fun y y' => forall q, same_off_diagonal (points_of q y) (points_of q y')) Y Y' ->
  number_of_points n_jobs X Y = number_of_points n_jobs' X Y'.
Proof.
  intros HJ HJ' HT HY HY' F. destruct (number_of_points_ok X HT) as [dims [HD E]]. rewrite (E n_jobs Y HJ HY), (E n_jobs' Y' HJ' HY'). f_equal.
  eapply Forall2_map_eq; [|exact (Forall2_In2 _ _ _ F)]. intros y y' [Hy [Hy' A]]. cbn beta. apply map_ext. intros q. unfold zlen. f_equal. apply Permutation_length, A.
Qed.
Example ex_number_of_points : number_of_points 2 (of_raw ex_raw) (of_raw ex_raw') = Ok [[2; 1]; [1; 0]].
Proof. vm_compute. reflexivity. Qed.

(** ** C29: ComplexPolynomial. *)
Definition valid_ncoef (nc : ncoef) (X : list diagram) : Prop :=
  match nc with
  | NCnone => True
  | NCint n => 0 <= n
  | NCper l => (forall n, In n l -> 0 <= n) /\ forall dims, dimensions_of X dims -> zlen l = zlen dims
  end.
Lemma fit_valid nc X : trainable X -> valid_ncoef nc X ->
  exists g, fit_coefficients nc X = Ok g /\ g <> [] /\ coefficient_counts nc X g /\
    (forall q, In q (map fst g) -> In q (map pq (hd [] X))) /\ (forall q n, In (q, n) g -> 0 <= n).
Proof.
  intros HT HV. destruct (fit_coefficients_ok nc X HT) as [g [E [Hg HC]]]; [destruct nc; try exact I; apply HV|].
  exists g. repeat match goal with |- _ /\ _ => split end; try assumption.
  - apply HC.
  - intros q n Hin. destruct HC as [_ HC]. destruct nc as [|k|l].
    + rewrite (HC q n Hin). apply zlen_nonneg.
    + rewrite (HC q n Hin). exact HV.
    + apply HV. rewrite <- HC. apply in_map_iff. exists (q, n). auto.
Qed.
Theorem complex_polynomial_spec t nc X :
  trainable X -> valid_ncoef nc X ->
  exists g, coefficient_counts nc X g /\
    forall Y, transformable (map pq (hd [] X)) Y ->
      (forall y q, In y Y -> In q (map pq (hd [] X)) -> off_diagonal (points_of q y) <> []) ->
    exists V, complex_polynomial t nc X Y = Ok V /\
      Forall2 (fun y row => exists blocks, row = concat blocks /\
        Forall2 (fun e b => is_polynomial_feature t (snd e) (points_of (fst e) y) b) g blocks) Y V.
Proof.
  intros HT HV. destruct (fit_valid nc X HT HV) as [g [E [Hg [HC [HK Hn]]]]]. exists g. split; [assumption|]. intros Y HY HO.
  eexists. split; [now apply (complex_polynomial_ok t nc X g)|]. apply Forall2_map_right, Forall2_same. intros y Hy.
  eexists. split; [reflexivity|]. apply Forall2_map_right, Forall2_same. intros [q n] He. cbn [fst snd].
  assert (Hq : In q (map pq (hd [] X))) by (apply HK; apply in_map_iff; exists (q, n); auto).
  destruct (complex_polynomial1_ok t n (points_of q y) (Hn q n He) (HO y q Hy Hq)) as [b [-> Hb]]. exact Hb.
Qed.

(** The polynomial vanishes exactly at its roots. *)
Theorem polynomial_vanishes_at_roots c roots z :
  is_monic_with_roots c roots -> (poly_value c z = (0, 0)%R <-> In z roots).
Proof.
  intros [_ [_ H]]. rewrite H, cprod_0, in_map_iff. split.
  - intros [r [E Hr]]. assert (z = r); [|now subst]. destruct z, r. unfold cadd, copp in E. cbn [fst snd] in E. injection E as E1 E2. f_equal; lra.
  - intros Hz. exists z. split; [|assumption]. destruct z as [a b]. unfold cadd, copp. cbn [fst snd]. f_equal; ring.
Qed.

Lemma Forall2_In_r' {A B} (R : A -> B -> Prop) l l' b : Forall2 R l l' -> In b l' -> exists a, In a l /\ R a b.
Proof. induction 1 as [|a c l l' H F IH]; intros []; [subst; exists a; split; [now left|assumption]|]. destruct (IH H0) as [a' [? ?]]. exists a'. split; [now right|assumption]. Qed.
(** Order of points and diagonal points do not matter. *)
Theorem complex_polynomial_ignores_diagonal t nc X Y Y' :
  trainable X -> valid_ncoef nc X ->
  transformable (map pq (hd [] X)) Y -> transformable (map pq (hd [] X)) Y' ->
  (forall y q, In y Y -> In q (map pq (hd [] X)) -> off_diagonal (points_of q y) <> []) ->
  Forall2 (fun y y' => forall q, same_off_diagonal (points_of q y) (points_of q y')) Y Y' ->
  complex_polynomial t nc X Y = complex_polynomial t nc X Y'.
Proof.
  intros HT HV HY HY' HO F. destruct (fit_valid nc X HT HV) as [g [E [Hg [HC [HK Hn]]]]].
  rewrite (complex_polynomial_ok t nc X g E Hg HK Hn Y HY HO).
  rewrite (complex_polynomial_ok t nc X g E Hg HK Hn Y' HY').
  - f_equal. eapply Forall2_map_eq; [|exact (Forall2_In2 _ _ _ F)]. intros y y' [Hy [Hy' A]]. cbn beta. f_equal. apply map_ext. intros e.
    now rewrite (complex_polynomial1_same t (snd e) _ _ (A (fst e))).
  - intros y' q Hy' Hq E0. destruct (Forall2_In_r' _ _ _ y' F Hy') as [y [Hy A]]. specialize (A q). unfold same_off_diagonal in A. rewrite E0 in A.
    apply Permutation_sym, Permutation_nil in A. now apply (HO y q Hy Hq).
Qed.

(** Finding: transform raises TypeError as soon as one subdiagram has no point
    off the diagonal. *)
Theorem complex_polynomial_total_refuted t nc X Y y q :
  trainable X -> valid_ncoef nc X -> transformable (map pq (hd [] X)) Y ->
  In y Y -> In q (map pq (hd [] X)) -> off_diagonal (points_of q y) = [] ->
  complex_polynomial t nc X Y = Err TypeError.
Proof.
  intros HT HV HY Hy Hq E0. destruct (fit_valid nc X HT HV) as [g [E [Hg [HC [HK Hn]]]]]. unfold complex_polynomial. rewrite E. cbn [bind].
  match goal with |- bind (mapM ?f ?l) _ = _ => assert (EM : mapM f l = Err TypeError) end; [|now rewrite EM].
  set (l := flat_map (fun y => map (fun d => (y, d)) g) Y).
  set (f := fun yd : diagram * (fl * Z) => _).
  assert (Hf : forall y q n, In y Y -> In (q, n) g -> f (y, (q, n)) = complex_polynomial1 t n (points_of q y)).
  { intros y1 q1 n1 Hy1 Hq1. unfold f. cbn [fst snd]. rewrite subdiagrams_one. cbn [bind map]. now rewrite (points_of_to_q q1 Y y1 (proj1 (proj2 HY)) Hy1). }
  assert (HOk : forall a, In a l -> (exists b, f a = Ok b) \/ f a = Err TypeError).
  { intros a Ha. apply in_flat_map in Ha. destruct Ha as [y1 [Hy1 Ha]]. apply in_map_iff in Ha. destruct Ha as [[q1 n1] [<- Ha]].
    rewrite (Hf y1 q1 n1 Hy1 Ha). destruct (off_diagonal (points_of q1 y1)) eqn:EO.
    - right. unfold complex_polynomial1. fold (off_diagonal (points_of q1 y1)). now rewrite EO.
    - left. destruct (complex_polynomial1_ok t n1 (points_of q1 y1)) as [b [Eb _]]; [now apply (Hn q1)|now rewrite EO|eauto]. }
  assert (HBad : exists a, In a l /\ f a = Err TypeError).
  { destruct HC as [[_ HI] _]. apply HI in Hq. apply in_map_iff in Hq. destruct Hq as [[q1 n1] [Eq1 Hin]]. cbn [fst] in Eq1. subst q1.
    exists (y, (q, n1)). split; [apply in_flat_map; exists y; split; [assumption|]; apply in_map_iff; eauto|]. rewrite (Hf y q n1 Hy Hin).
    unfold complex_polynomial1. fold (off_diagonal (points_of q y)). now rewrite E0. }
  clearbody l f. clear - HOk HBad. induction l as [|a l IH]; [destruct HBad as [a [[] _]]|]. cbn [mapM].
  destruct (HOk a (or_introl eq_refl)) as [[b Eb]|Eb]; rewrite Eb; [|reflexivity]. cbn [bind]. rewrite IH; [reflexivity| |].
  - intros a' Ha'. apply HOk. now right.
  - destruct HBad as [a' [[<-|Ha'] Ea']]; [congruence|eauto].
Qed.

Definition ex_raw4 : list (list (Z * Z * Z)) :=
  [[(0, 1, 0); (1, 3, 0); (2, 2, 0); (0, 2, 1)]; [(0, 2, 0); (0, 0, 0); (1, 1, 0); (1, 2, 1)]].
Example ex_polynomial : trainable (of_raw ex_raw4) /\ transformable (map pq (hd [] (of_raw ex_raw4))) (of_raw ex_raw4) /\
  valid_ncoef (NCint 3) (of_raw ex_raw4) /\
  (forall y q, In y (of_raw ex_raw4) -> In q (map pq (hd [] (of_raw ex_raw4))) -> off_diagonal (points_of q y) <> []).
Proof.
  assert (HQ : forall q, In q (map pq (hd [] (of_raw ex_raw4))) -> q = fz 0 \/ q = fz 1).
  { intros q Hq. cbn in Hq. destruct Hq as [<-|[<-|[<-|[<-|[]]]]]; auto. }
  assert (HT : trainable (of_raw ex_raw4)).
  { split; [discriminate|]. split.
    - apply ex_finite. intros x t [<-|[<-|[]]] H; repeat (destruct H as [<-|H]; [cbn; lia|]); destruct H.
    - intros q Hq. destruct (HQ q Hq) as [->| ->]; (split; [reflexivity|]); [exists 3|exists 1]; intros x [<-|[<-|[]]]; vm_compute; reflexivity. }
  split; [assumption|]. split; [split; [discriminate|split; [apply HT|intros q Hq; now apply HT]]|]. split; [cbn; lia|].
  intros y q Hy Hq E. assert (zlen (off_diagonal (points_of q y)) <> 0); [|rewrite E in *; now cbn in *].
  destruct (HQ q Hq) as [->| ->], Hy as [<-|[<-|[]]]; vm_compute; discriminate.
Qed.
Example ex_polynomial_fails : complex_polynomial PolyR (NCint 3) (of_raw ex_raw) (of_raw ex_raw) = Err TypeError.
Proof.
  apply (complex_polynomial_total_refuted PolyR (NCint 3) _ _ (nth 1 (of_raw ex_raw) []) (fz 1) ex_trainable ltac:(cbn; lia) ex_transformable).
  - right. now left.
  - do 2 right. now left.
  - vm_compute. reflexivity.
Qed.

Print Assumptions persistence_entropy_spec.
Print Assumptions entropy_bounds.
Print Assumptions persistence_entropy_scale_invariant.
Print Assumptions persistence_entropy_ignores_diagonal.
Print Assumptions normalized_entropy_nonnegative_refuted.
Print Assumptions number_of_points_spec.
Print Assumptions number_of_points_ignores_diagonal.
Print Assumptions complex_polynomial_spec.
Print Assumptions polynomial_vanishes_at_roots.
Print Assumptions complex_polynomial_ignores_diagonal.
Print Assumptions complex_polynomial_total_refuted.
