(** Theorems about silhouettes, amplitudes and pairwise distances: C22, C24,
    C25, C26, C31. *)
From Coq Require Import Reals Lra Permutation.
From Verif Require Import Np NpFacts Fl FlFacts DiagTypes DiagModel DiagSpec DiagProofs DiagProofs2
  VecModel VecSpec SliceFacts VecProofs VecProofs2 VecProofs3 VecProofs4 VecThms RNp RNormFacts
  MetricModel MetricSpec MetricProofs MetricProofs2 MetricProofs3 MetricProofs4 MetricProofs5.
Open Scope Z_scope.

Lemma okpt_of m dims Y y q : transformable dims Y -> defined_on m dims Y -> In y Y -> In q dims -> okpt m (points_of q y).
Proof. intros HT HD Hy Hq. split; [apply (proper_points q Y); [apply HT|assumption]|now apply (sil_ok_points m dims Y)]. Qed.

(** ** C22: Silhouette. *)

(** Each value is the weighted mean of the tents. *)
Theorem silhouette_spec power n_bins X :
  1 <= n_bins -> match power with Pfin a => (0 < a)%R | Pinf => True end -> trainable X ->
  exists g, fitted_grids n_bins X g /\
    forall n_jobs Y, 1 <= n_jobs -> transformable (map pq (hd [] X)) Y ->
    defined_on (Silhouette Pinf power) (map pq (hd [] X)) Y ->
    exists S, silhouette_transform power n_bins n_jobs X Y = Ok S /\
      Forall2 (fun y curves => Forall2 (fun e c => exists v, c = Some v /\
        Forall2 (is_silhouette power (points_of (fst e) y)) (fst (snd e)) v) g curves) Y S.
Proof.
  intros Hn Hp HT. destruct (silhouette_transform_ok power n_bins X Hn Hp HT) as [g [HG H]]. exists g. split; [assumption|].
  intros n_jobs Y HJ HY HD. rewrite (H n_jobs Y HJ HY HD). eexists. split; [reflexivity|].
  apply Forall2_map_right. apply Forall2_same. intros y Hy. apply Forall2_map_right. apply Forall2_same. intros e He.
  eexists. split; [reflexivity|]. apply Forall2_map_right. apply Forall2_same. intros s _.
  assert (Hq : In (fst e) (map pq (hd [] X))) by (apply HG; now apply in_map).
  destruct (okpt_of (Silhouette Pinf power) _ Y y (fst e) HY HD Hy Hq) as [A B]. apply silv_is; assumption.
Qed.

(** It lies between 0 and the first landscape layer (the largest tent) and is 0
    when there are no off-diagonal points. *)
Theorem silhouette_bounds power x s v :
  (forall p, In p x -> (fst p <= snd p)%Qc) -> is_silhouette power x s v ->
  (0 <= v)%R /\ forall t, kth_largest (map (tent s) x) 0 t -> (v <= qr t)%R.
Proof. exact (is_silhouette_bounds power x s v). Qed.
Theorem silhouette_trivial power x s v :
  (forall p, In p x -> fst p = snd p) -> is_silhouette power x s v -> v = 0%R.
Proof.
  intros H [w [_ [Ev Ez]]]. assert (Hz : total (map (fun p => (w p * qr (tent s p))%R) x) = 0%R).
  { clear Ev Ez. induction x as [|p x IH]; [reflexivity|]. cbn [map total]. rewrite IH by (intros; apply H; now right).
    rewrite (tent_diagonal s p) by (apply H; now left). rewrite qr_0. ring. }
  rewrite Hz in Ev. apply Rmult_integral in Ev. destruct Ev; auto.
Qed.
Theorem silhouette_ignores_diagonal power n_bins n_jobs n_jobs' X Y Y' :
  1 <= n_bins -> match power with Pfin a => (0 < a)%R | Pinf => True end ->
  1 <= n_jobs -> 1 <= n_jobs' -> trainable X ->
  transformable (map pq (hd [] X)) Y -> transformable (map pq (hd [] X)) Y' ->
  defined_on (Silhouette Pinf power) (map pq (hd [] X)) Y ->
  defined_on (Silhouette Pinf power) (map pq (hd [] X)) Y' ->
  Forall2 (fun y y' => forall q, same_off_diagonal (points_of q y) (points_of q y')) Y Y' ->
  silhouette_transform power n_bins n_jobs X Y = silhouette_transform power n_bins n_jobs' X Y'.
Proof.
  intros Hn Hp HJ HJ' HT HY HY' HD HD' HS. destruct (silhouette_transform_ok power n_bins X Hn Hp HT) as [g [HG H]].
  rewrite (H _ _ HJ HY HD), (H _ _ HJ' HY' HD'). f_equal. eapply Forall2_map_eq; [|exact (Forall2_In2 _ _ _ HS)].
  cbn beta. intros y y' [Hy [Hy' F]]. apply map_ext_in. intros e He. f_equal. apply map_ext. intros s.
  assert (Hq : In (fst e) (map pq (hd [] X))) by (apply HG; now apply in_map).
  destruct (okpt_of (Silhouette Pinf power) _ Y y (fst e) HY HD Hy Hq) as [A B]. destruct (okpt_of (Silhouette Pinf power) _ Y' y' (fst e) HY' HD' Hy' Hq) as [A' B'].
  apply silv_same; auto.
Qed.

(** With a power above 8 a subdiagram with only diagonal points gives NaN
    instead of 0 (finding). *)
Theorem silhouette_trivial_refuted power n_bins X n_jobs Y :
  1 <= n_bins -> match power with Pfin a => (8 < a)%R | Pinf => True end -> trainable X ->
  1 <= n_jobs -> transformable (map pq (hd [] X)) Y ->
  has_points (map pq (hd [] X)) Y -> (forall y, In y Y -> trivial_diagram y) ->
  exists dims, dimensions_of X dims /\
    silhouette_transform power n_bins n_jobs X Y = Ok (map (fun _ => map (fun _ => None) dims) Y).
Proof.
  intros Hn Hp HT HJ HY HPt HTr. destruct (fit_one_axis n_bins X Hn HT) as [g [E1 [E2 [Hg [HG HN]]]]]. exists (map fst g). split; [apply HG|].
  unfold silhouette_transform. rewrite E1. cbn [bind]. rewrite E2. cbn [bind]. destruct HG as [[HI HK] _].
  assert (HY' : transformable (map fst g) Y) by (eapply transformable_ext; [|exact HY]; intros q; now rewrite HK).
  etransitivity; [apply (vectorise_loop (fun s batch => silhouettes batch (fst s) power) (fun e y => None) None); try assumption|].
  - intros q e ys He I. unfold silhouettes. rewrite mapM_map. apply mapM_Ok. intros y Hy. apply I in Hy.
    assert (Hq : In q (map pq (hd [] X))) by (apply HK; apply in_map_iff; exists (q, e); auto).
    unfold silhouette. assert (EP : large_power power = true) by (destruct power; [cbn; destruct (Rlt_dec 8 p); [reflexivity|contradiction]|reflexivity]). rewrite EP.
    change (map lifetime (points_of q y)) with (map life (points_of q y)).
    assert (EM : forall (T : Type) (a b : T), match map life (points_of q y) with [] => a | _ :: _ => b end = b).
    { intros T a b. specialize (HPt y q Hy Hq). unfold points_of. destruct (rows_of q y); [easy|reflexivity]. }
    rewrite EM. rewrite max_life_off, (trivial_off q y (HTr y Hy)). cbn [map]. destruct (Req_EM_T (rmax []) 0) as [_|F]; [reflexivity|]. exfalso. apply F. reflexivity.
  - f_equal. apply map_ext. intros y. now rewrite map_map.
Qed.

(** ** C25: PairwiseDistance. *)

(** Every value is the scaled p-norm of the difference of two curves. *)
Theorem pairwise_distance_spec E m n_bins X :
  vectorised m -> good_parameters E m n_bins -> trainable X ->
  defined_on m (map pq (hd [] X)) X ->
  exists g, metric_grids m n_bins X g /\
    forall n_jobs Y, 1 <= n_jobs -> transformable (map pq (hd [] X)) Y ->
    defined_on m (map pq (hd [] X)) Y ->
    exists D, pairwise_distance E m n_bins n_jobs X Y = Ok D /\
      Forall2 (fun y row => Forall2 (fun x vals => Forall2 (fun e v => exists r, v = Some r /\
          is_distance E m n_bins (snd e) (points_of (fst e) y) (points_of (fst e) x) r) g vals) X row) Y D.
Proof.
  intros HV HG HT HD. destruct (pairwise_distance_ok E m n_bins X HV HG HT HD) as [g [_ [HM [_ [HE [HK H]]]]]]. exists g. split; [assumption|].
  intros n_jobs Y HJ HY HDY. rewrite (H n_jobs Y HJ HY HDY). eexists. split; [reflexivity|].
  do 2 (apply Forall2_map_right; apply Forall2_same; intros ? ?). apply Forall2_map_right. apply Forall2_same. intros [q e] He. eexists. split; [reflexivity|].
  assert (Hq : In q (map pq (hd [] X))) by (apply HK; apply in_map_iff; exists (q, e); auto).
  apply dval_is; try assumption; [now apply (HE q)| |].
  - now apply (okpt_of m (map pq (hd [] X)) Y).
  - apply (okpt_of m (map pq (hd [] X)) X); try assumption. now apply trainable_transformable.
Qed.

(** fit_transform gives, for each homology dimension, a pseudo-metric on the
    training samples. *)
Lemma value3_map (X : list diagram) (V : Type) (G : diagram -> diagram -> list V) i j c x y :
  Znth X i = Some x -> Znth X j = Some y -> value3 (map (fun x => map (fun y => G x y) X) X) i j c = Znth (G x y) c.
Proof. intros Hi Hj. unfold value3, entry. rewrite Znth_map, Hi. cbn [option_map]. rewrite Znth_map, Hj. reflexivity. Qed.
Lemma pseudo_metric_from (X : list diagram) (d : Z -> Z -> option (option R)) (f : diagram -> diagram -> R) :
  (forall i j x y, Znth X i = Some x -> Znth X j = Some y -> d i j = Some (Some (f x y))) ->
  (forall x, In x X -> f x x = 0%R) -> (forall x y, In x X -> In y X -> f x y = f y x /\ (0 <= f x y)%R) ->
  (forall x y z, In x X -> In y X -> In z X -> (f x z <= f x y + f y z)%R) -> pseudo_metric (zlen X) d.
Proof.
  intros Hd H0 H1 H2. exists (fun i j => match Znth X i, Znth X j with Some x, Some y => f x y | _, _ => 0%R end).
  assert (S : forall i, 0 <= i < zlen X -> exists x, Znth X i = Some x /\ In x X).
  { intros i Hi. destruct (Znth_ex X i Hi) as [x Ex]. exists x. split; [assumption|]. eapply Znth_In; eassumption. }
  repeat split.
  - intros i j Hi Hj. destruct (S i Hi) as [x [Ex Ix]], (S j Hj) as [y [Ey Iy]]. rewrite Ex, Ey. auto.
  - intros i Hi. destruct (S i Hi) as [x [Ex Ix]]. rewrite Ex. auto.
  - destruct (S i H) as [x [Ex Ix]], (S j H3) as [y [Ey Iy]]. rewrite Ex, Ey. now apply H1.
  - destruct (S i H) as [x [Ex Ix]], (S j H3) as [y [Ey Iy]]. rewrite Ex, Ey. now apply H1.
  - intros i j k Hi Hj Hk. destruct (S i Hi) as [x [Ex Ix]], (S j Hj) as [y [Ey Iy]], (S k Hk) as [z [Ez Iz]]. rewrite Ex, Ey, Ez. auto.
Qed.
Theorem pairwise_distance_pseudo_metric E m n_bins n_jobs X :
  vectorised m -> good_parameters E m n_bins -> trainable X ->
  defined_on m (map pq (hd [] X)) X -> 1 <= n_jobs ->
  exists dims D, dimensions_of X dims /\ pairwise_distance E m n_bins n_jobs X X = Ok D /\
    forall c, 0 <= c < zlen dims -> pseudo_metric (zlen X) (fun i j => value3 D i j c).
Proof.
  intros HV HG HT HD HJ. pose proof (trainable_transformable X HT) as HTT.
  assert (Hn : 1 <= n_bins) by (destruct HG as [_ G]; destruct m; lia). destruct (fit_metric_ok m n_bins X Hn HT) as [g0 [E0 [_ [_ [HDm _]]]]].
  destruct (pairwise_distance_ok E m n_bins X HV HG HT HD) as [g [E1 [_ [_ [HE [HK H]]]]]]. assert (g0 = g) by congruence. subst g0.
  exists (map fst g). eexists. split; [exact HDm|]. split; [apply (H n_jobs X); assumption|]. intros c Hc. rewrite zlen_map in Hc.
  destruct (Znth_ex g c Hc) as [e Ee]. pose proof (Znth_In _ _ _ Ee) as Ie. destruct e as [q e]. pose proof (HE q e Ie) as He.
  assert (Hq : In q (map pq (hd [] X))) by (apply HK; apply in_map_iff; exists (q, e); auto).
  assert (HO : forall x, In x X -> okpt m (points_of q x)) by (intros x Hx; now apply (okpt_of m (map pq (hd [] X)) X)).
  apply (pseudo_metric_from X _ (fun x y => dval E m (q, e) x y)).
  - intros i j x y Hi Hj. rewrite (value3_map X (option R) (fun y x => map (fun e => Some (dval E m e y x)) g) i j c x y Hi Hj). rewrite Znth_map, Ee. reflexivity.
  - intros x _. now apply (dval_refl E m n_bins).
  - intros x y _ _. split; [apply dval_sym|now apply (dval_nonneg E m n_bins)].
  - intros x y z Hx Hy Hz. apply (dval_triangle E m n_bins); try assumption; apply HO; assumption.
Qed.
Theorem pairwise_distance_order_pseudo_metric E m order n_bins n_jobs X :
  vectorised m -> good_parameters E m n_bins -> ge1 order -> trainable X ->
  defined_on m (map pq (hd [] X)) X -> 1 <= n_jobs ->
  exists D, pairwise_distance_order E m order n_bins n_jobs X X = Ok D /\
    pseudo_metric (zlen X) (entry D).
Proof.
  intros HV HG HO HT HD HJ. pose proof (trainable_transformable X HT) as HTT.
  destruct (pairwise_distance_ok E m n_bins X HV HG HT HD) as [g [_ [_ [_ [HE [HK H]]]]]].
  unfold pairwise_distance_order. rewrite (H n_jobs X HJ HTT HD). cbn [bind]. eexists. split; [reflexivity|].
  assert (HP : forall x q, In x X -> In q (map fst g) -> okpt m (points_of q x)) by (intros x q Hx Hq; apply (okpt_of m (map pq (hd [] X)) X); auto; now apply HK).
  assert (HE' : forall e, In e g -> entry_ok m n_bins (snd e)) by (intros [q e] He; now apply (HE q)).
  apply (pseudo_metric_from X _ (fun x y => norm order (map (fun e => dval E m e x y) g))).
  - intros i j x y Hi Hj. unfold entry. rewrite !Znth_map, Hi. cbn [option_map]. rewrite !Znth_map, Hj. cbn [option_map]. f_equal. apply combine_order_map.
  - intros x _. rewrite (map_ext _ (fun _ => 0%R)) by (intros e; now apply (dval_refl E m n_bins)). apply norm_zero; [now apply (ge1_pos order)|].
    intros v Hv. apply in_map_iff in Hv. now destruct Hv as [e [<- _]].
  - intros x y _ _. split; [f_equal; apply map_ext; intros e; apply dval_sym|apply norm_nonneg].
  - intros x y z Hx Hy Hz. apply norm_map_triangle; [assumption|]. intros e He. split; [apply (dval_nonneg E m n_bins); auto|].
    apply (dval_triangle E m n_bins); auto; apply HP; auto; now apply in_map.
Qed.

(** C26: the result does not depend on the number of jobs. *)
Theorem pairwise_distance_jobs E m order n_bins n_jobs X Y :
  vectorised m /\ good_parameters E m n_bins /\ defined_on m (map pq (hd [] X)) X /\
    defined_on m (map pq (hd [] X)) Y \/ ~ vectorised m /\ 1 <= n_bins ->
  trainable X -> 1 <= n_jobs -> transformable (map pq (hd [] X)) Y ->
  pairwise_distance E m n_bins n_jobs X Y = pairwise_distance E m n_bins 1 X Y /\
  pairwise_distance_order E m order n_bins n_jobs X Y = pairwise_distance_order E m order n_bins 1 X Y /\
  exists D, pairwise_distance E m n_bins 1 X Y = Ok D.
Proof.
  intros HC HT HJ HY.
  assert (H : exists D, forall n, 1 <= n -> pairwise_distance E m n_bins n X Y = Ok D).
  { destruct HC as [[HV [HG [HD HD']]]|[HV Hn]].
    - destruct (pairwise_distance_ok E m n_bins X HV HG HT HD) as [g [_ [_ [_ [_ [_ H]]]]]]. eexists. intros n Hn. now apply H.
    - destruct (pairwise_points_ok E m n_bins X HV Hn HT) as [g [_ [_ [_ [_ H]]]]]. eexists. intros n Hn'. now apply H. }
  destruct H as [D H]. unfold pairwise_distance_order. rewrite (H n_jobs HJ), (H 1 ltac:(lia)). split; [reflexivity|]. split; [reflexivity|]. exists D. reflexivity.
Qed.

(** Bottleneck and Wasserstein distances: the external algorithm, applied to the
    off-diagonal points. *)
Theorem pairwise_point_distance_spec E m n_bins X :
  ~ vectorised m -> 1 <= n_bins -> trainable X ->
  exists dims, dimensions_of X dims /\
    forall n_jobs Y, 1 <= n_jobs -> transformable (map pq (hd [] X)) Y ->
    pairwise_distance E m n_bins n_jobs X Y =
    Ok (map (fun y => map (fun x => map (fun q =>
      Some (match m with
            | Bottleneck => x_bottleneck E (off_diagonal (points_of q y)) (off_diagonal (points_of q x))
            | Wasserstein p => x_wasserstein E p (off_diagonal (points_of q y)) (off_diagonal (points_of q x))
            | _ => 0%R
            end)) dims) X) Y).
Proof.
  intros HV Hn HT. destruct (fit_metric_ok m n_bins X Hn HT) as [g0 [E0 [_ [_ [HDm _]]]]].
  destruct (pairwise_points_ok E m n_bins X HV Hn HT) as [g [E1 [_ [_ [_ H]]]]]. assert (g0 = g) by congruence. subst g0.
  exists (map fst g). split; [exact HDm|]. intros n_jobs Y HJ HY. rewrite (H n_jobs Y HJ HY). f_equal. apply map_ext. intros y. apply map_ext. intros x.
  rewrite map_map. apply map_ext. intros e. f_equal. unfold pval. now destruct m.
Qed.

(** ** C24: Amplitude. *)
Theorem amplitude_spec E m n_bins X :
  good_parameters E m n_bins -> trainable X ->
  exists g, metric_grids m n_bins X g /\
    forall n_jobs Y, 1 <= n_jobs -> transformable (map pq (hd [] X)) Y ->
    defined_on m (map pq (hd [] X)) Y ->
    (m = Bottleneck -> has_points (map pq (hd [] X)) Y) ->
    exists A, amplitude E m n_bins n_jobs X Y = Ok A /\
      Forall2 (fun y vals => Forall2 (fun e v => exists r, v = Some r /\ (0 <= r)%R /\
          is_amplitude E m n_bins (snd e) (points_of (fst e) y) r) g vals) Y A.
Proof.
  intros HG HT. destruct (amplitude_ok E m n_bins X HG HT) as [g [_ [HM [_ [HE [HK H]]]]]]. exists g. split; [assumption|].
  intros n_jobs Y HJ HY HDY HB. rewrite (H n_jobs Y HJ HY HDY HB). eexists. split; [reflexivity|].
  apply Forall2_map_right; apply Forall2_same; intros y Hy. apply Forall2_map_right. apply Forall2_same. intros [q e] He. eexists. split; [reflexivity|].
  assert (Hq : In q (map pq (hd [] X))) by (apply HK; apply in_map_iff; exists (q, e); auto). pose proof (HE q e He) as Ee. split.
  - apply Rmult_le_pos; [apply norm_nonneg|]. exact (proj2 (mfactor_ok E m n_bins e HG Ee)).
  - apply aval_is; try assumption. now apply (okpt_of m (map pq (hd [] X)) Y).
Qed.

(** Amplitude = distance to a trivial diagram of the training set. *)
Theorem amplitude_is_distance_to_trivial E m n_bins X j x0 :
  comparable E m -> good_parameters E m n_bins -> trainable X ->
  defined_on m (map pq (hd [] X)) X -> Znth X j = Some x0 -> trivial_diagram x0 ->
  forall n_jobs Y, 1 <= n_jobs -> transformable (map pq (hd [] X)) Y ->
  defined_on m (map pq (hd [] X)) Y ->
  exists A D, amplitude E m n_bins n_jobs X Y = Ok A /\ pairwise_distance E m n_bins n_jobs X Y = Ok D /\
    zlen A = zlen Y /\ forall i, 0 <= i < zlen Y -> Znth A i = entry D i j.
Proof.
  intros HC HG HT HD Hj H0 n_jobs Y HJ HY HDY. pose proof (comparable_vectorised E m HC) as HV.
  destruct (pairwise_distance_ok E m n_bins X HV HG HT HD) as [g [E1 [_ [_ [HE [HK H]]]]]].
  destruct (amplitude_ok E m n_bins X HG HT) as [g' [E1' [_ [_ [_ [_ H']]]]]]. assert (g' = g) by congruence. subst g'.
  do 2 eexists. split; [apply H'; try assumption; intros ->; destruct HV|]. split; [now apply H|]. split; [apply zlen_map|].
  intros i Hi. destruct (Znth_ex Y i Hi) as [y Ey]. unfold entry. rewrite !Znth_map, Ey. cbn [option_map]. rewrite Znth_map, Hj. cbn [option_map]. f_equal.
  apply map_ext_in. intros [q e] He. f_equal. symmetry. assert (Hq : In q (map pq (hd [] X))) by (apply HK; apply in_map_iff; exists (q, e); auto).
  apply (dval_trivial E m n_bins); try assumption; [now apply (HE q)| |]; cbn [fst].
  - apply (okpt_of m (map pq (hd [] X)) Y); try assumption. eapply Znth_In; eassumption.
  - apply (okpt_of m (map pq (hd [] X)) X); try assumption; [now apply trainable_transformable|]. eapply Znth_In; eassumption.
Qed.

(** Bottleneck and Wasserstein amplitudes are the exact cost of the optimal
    matching with the empty diagram. *)
Theorem amplitude_is_optimal_matching E m n_bins X :
  ~ vectorised m -> ge1 (exponent m) -> 1 <= n_bins -> trainable X ->
  exists dims, dimensions_of X dims /\
    forall n_jobs Y, 1 <= n_jobs -> transformable (map pq (hd [] X)) Y ->
    (m = Bottleneck -> has_points (map pq (hd [] X)) Y) ->
    exists A, amplitude E m n_bins n_jobs X Y = Ok A /\
      Forall2 (fun y vals => Forall2 (fun q v => exists r, v = Some r /\
          is_matching_distance (exponent m) (off_diagonal (points_of q y)) [] r) dims vals) Y A.
Proof.
  intros HV Hp Hn HT. assert (HG : good_parameters E m n_bins) by (split; [assumption|]; destruct m; cbn in HV; tauto).
  destruct (fit_metric_ok m n_bins X Hn HT) as [g0 [E0 [_ [_ [HDm _]]]]].
  destruct (amplitude_ok E m n_bins X HG HT) as [g [E1 [_ [_ [HE [HK H]]]]]]. assert (g0 = g) by congruence. subst g0.
  exists (map fst g). split; [exact HDm|]. intros n_jobs Y HJ HY HB.
  assert (HDY : defined_on m (map pq (hd [] X)) Y) by (destruct m; cbn in HV; try tauto; exact I).
  rewrite (H n_jobs Y HJ HY HDY HB). eexists. split; [reflexivity|].
  apply Forall2_map_right; apply Forall2_same; intros y Hy. apply Forall2_map_left', Forall2_map_right, Forall2_same. intros [q e] He. eexists. split; [reflexivity|].
  apply matching_distance_nil; [now apply (ge1_pos (exponent m))| |].
  - intros p Hin. apply off_diagonal_In in Hin. apply (proper_points q Y y); [apply HY|assumption|tauto].
  - unfold aval. cbn [fst snd]. rewrite <- (half_norm_off (exponent m) (points_of q y)) by now apply (ge1_pos (exponent m)). destruct m; cbn in HV; try tauto; cbn [mfactor mcurve exponent]; ring.
Qed.
(** So for an algorithm of relative accuracy delta the distance to a trivial
    diagram is within a factor 1 + delta of the amplitude. *)
Theorem amplitude_bounds_point_distance E m n_bins X j x0 delta n_jobs Y :
  ~ vectorised m -> ge1 (exponent m) -> 1 <= n_bins -> trainable X ->
  approximates delta (exponent m)
    (match m with Bottleneck => x_bottleneck E | Wasserstein p => x_wasserstein E p | _ => fun _ _ => 0%R end) ->
  Znth X j = Some x0 -> trivial_diagram x0 ->
  1 <= n_jobs -> transformable (map pq (hd [] X)) Y ->
  (m = Bottleneck -> has_points (map pq (hd [] X)) Y) ->
  exists A D, amplitude E m n_bins n_jobs X Y = Ok A /\ pairwise_distance E m n_bins n_jobs X Y = Ok D /\
    zlen A = zlen Y /\
    forall i y, Znth Y i = Some y -> exists a d, Znth A i = Some a /\ entry D i j = Some d /\
      Forall2 (fun a d => exists r s, a = Some r /\ d = Some s /\ (r <= s <= (1 + delta) * r)%R) a d.
Proof.
  intros HV Hp Hn HT HA Hj H0 HJ HY HB. assert (HG : good_parameters E m n_bins) by (split; [assumption|]; destruct m; cbn in HV; tauto).
  assert (HDY : defined_on m (map pq (hd [] X)) Y) by (destruct m; cbn in HV; try tauto; exact I).
  destruct (pairwise_points_ok E m n_bins X HV Hn HT) as [g [E1 [_ [_ [HK H]]]]].
  destruct (amplitude_ok E m n_bins X HG HT) as [g' [E1' [_ [_ [_ [_ H']]]]]]. assert (g' = g) by congruence. subst g'.
  do 2 eexists. split; [now apply H'|]. split; [now apply H|]. split; [apply zlen_map|]. intros i y Ey.
  do 2 eexists. split; [rewrite Znth_map, Ey; reflexivity|]. split; [unfold entry; rewrite Znth_map, Ey; cbn [option_map]; rewrite Znth_map, Hj; reflexivity|].
  apply Forall2_map_left', Forall2_map_right, Forall2_same. intros [q e] He. do 2 eexists. split; [reflexivity|]. split; [reflexivity|].
  unfold pval. cbn [fst]. rewrite (trivial_off q x0 H0). apply HA. apply matching_distance_nil; [now apply (ge1_pos (exponent m))| |].
  - intros p Hin. apply off_diagonal_In in Hin. apply (proper_points q Y y); [apply HY|eapply Znth_In; eassumption|tauto].
  - unfold aval. cbn [fst snd]. rewrite <- (half_norm_off (exponent m) (points_of q y)) by now apply (ge1_pos (exponent m)). destruct m; cbn in HV; try tauto; cbn [mfactor mcurve exponent]; ring.
Qed.

(** C24, C26, C31: amplitudes ignore diagonal points, the order of points and
    the number of jobs. *)
Theorem amplitude_ignores_diagonal E m order n_bins n_jobs n_jobs' X Y Y' :
  match m with PersImage _ _ _ => False | _ => True end ->
  good_parameters E m n_bins -> trainable X -> 1 <= n_jobs -> 1 <= n_jobs' ->
  transformable (map pq (hd [] X)) Y -> transformable (map pq (hd [] X)) Y' ->
  defined_on m (map pq (hd [] X)) Y -> defined_on m (map pq (hd [] X)) Y' ->
  (m = Bottleneck -> has_points (map pq (hd [] X)) Y /\ has_points (map pq (hd [] X)) Y') ->
  Forall2 (fun y y' => forall q, same_off_diagonal (points_of q y) (points_of q y')) Y Y' ->
  amplitude E m n_bins n_jobs X Y = amplitude E m n_bins n_jobs' X Y' /\
  amplitude_order E m order n_bins n_jobs X Y = amplitude_order E m order n_bins n_jobs' X Y' /\
  exists A, amplitude E m n_bins n_jobs X Y = Ok A.
Proof.
  intros HP HG HT HJ HJ' HY HY' HD HD' HB HS. destruct (amplitude_ok E m n_bins X HG HT) as [g [_ [_ [_ [HE [HK H]]]]]].
  assert (E0 : amplitude E m n_bins n_jobs X Y = amplitude E m n_bins n_jobs' X Y').
  { rewrite (H n_jobs Y), (H n_jobs' Y') by (auto; intros e; now apply HB). f_equal. eapply Forall2_map_eq; [|exact (Forall2_In2 _ _ _ HS)].
    cbn beta. intros y y' [Hy [Hy' F]]. apply map_ext_in. intros [q e] He. f_equal.
    assert (Hq : In q (map pq (hd [] X))) by (apply HK; apply in_map_iff; exists (q, e); auto).
    apply (aval_same E m n_bins); try assumption; [now apply (HE q)| | |apply F]; [now apply (okpt_of m (map pq (hd [] X)) Y)|now apply (okpt_of m (map pq (hd [] X)) Y')]. }
  split; [assumption|]. split; [unfold amplitude_order; now rewrite E0|]. rewrite (H n_jobs Y) by (auto; intros e; now apply HB). eexists. reflexivity.
Qed.

(** ** Examples and findings *)

(** Concrete externals: sorting for partition, identity for the Gaussian
    filters; two diagrams, the second one trivial in dimension 1. *)
Definition ex_E : externals :=
  {| x_partition := fun _ l => rev (sort_desc l); x_gauss1 := fun _ im => im; x_gauss2 := fun _ im => im;
     x_bottleneck := fun _ _ => 0%R; x_wasserstein := fun _ _ _ => 0%R |}.
Example ex_metrics_good :
  good_parameters ex_E (Betti (Pfin 2)) 3 /\ good_parameters ex_E (Landscape Pinf 2) 3 /\
  good_parameters ex_E (Heat (Pfin 1) 1%Qc) 3 /\ good_parameters ex_E (PersImage (Pfin 1) 1%Qc (fun l => l)) 3 /\
  good_parameters ex_E (Silhouette (Pfin 2) (Pfin 1)) 3 /\ good_parameters ex_E Bottleneck 3 /\
  good_parameters ex_E (Wasserstein 2) 3 /\
  (forall dims Y, defined_on (Silhouette (Pfin 2) (Pfin 1)) dims Y) /\ comparable ex_E (Heat (Pfin 1) 1%Qc) /\ ge1 (Pfin 2).
Proof.
  assert (P : is_partition (x_partition ex_E)) by apply partition_exists. assert (S : keeps_shape (x_gauss1 ex_E)) by apply (@ex_gauss_keeps_shape Qc).
  assert (S2 : keeps_shape (x_gauss2 ex_E)) by apply (@ex_gauss_keeps_shape (Qc * Qc)).
  unfold good_parameters, defined_on, comparable. cbn [exponent ge1].
  repeat match goal with |- _ /\ _ => split end; try lra; try lia; try assumption; try exact I; try discriminate; try (intros; reflexivity).
  all: try (intros; left; lra).
  all: try (intros p im H; exact H).
Qed.
(** Trained on [of_raw ex_raw] (two samples), all metrics above give matrices. *)
Example ex_pairwise : exists dims D, dimensions_of (of_raw ex_raw) dims /\
  pairwise_distance ex_E (Silhouette (Pfin 2) (Pfin 1)) 3 2 (of_raw ex_raw) (of_raw ex_raw) = Ok D /\
  forall c, 0 <= c < zlen dims -> pseudo_metric 2 (fun i j => value3 D i j c).
Proof.
  destruct ex_metrics_good as (_ & _ & _ & _ & HG & _ & _ & HD & _).
  apply (pairwise_distance_pseudo_metric ex_E (Silhouette (Pfin 2) (Pfin 1)) 3 2 (of_raw ex_raw) I HG ex_trainable (HD _ _)). lia.
Qed.
(** A training set with a trivial diagram. *)
Definition ex_raw0 : list (list (Z * Z * Z)) :=
  [[(0, 1, 0); (0, 3, 0); (0, 2, 1)]; [(0, 0, 0); (1, 1, 0); (2, 2, 1)]].
Example ex_trivial : trainable (of_raw ex_raw0) /\
  (exists x0, Znth (of_raw ex_raw0) 1 = Some x0 /\ trivial_diagram x0) /\
  has_points (map pq (hd [] (of_raw ex_raw0))) (of_raw ex_raw0).
Proof.
  assert (HQ : forall q, In q (map pq (hd [] (of_raw ex_raw0))) -> q = fz 0 \/ q = fz 1) by (intros q Hq; cbn in Hq; destruct Hq as [<-|[<-|[<-|[]]]]; auto).
  split; [|split].
  - split; [discriminate|]. split.
    + apply ex_finite. intros x t [<-|[<-|[]]] H; repeat (destruct H as [<-|H]; [cbn; lia|]); destruct H.
    + intros q Hq. destruct (HQ q Hq) as [->| ->]; (split; [reflexivity|]); [exists 2|exists 1]; intros x [<-|[<-|[]]]; vm_compute; reflexivity.
  - eexists. split; [reflexivity|]. intros p Hp. repeat (destruct Hp as [<-|Hp]; [reflexivity|]). destruct Hp.
  - intros y q Hy Hq. destruct (HQ q Hq) as [->| ->], Hy as [<-|[<-|[]]]; vm_compute; discriminate.
Qed.

(** The bottleneck amplitude is not defined when a diagram has no point, not
    even on the diagonal, in a fitted dimension (finding). *)
Theorem bottleneck_amplitude_no_points E :
  amplitude E Bottleneck 2 1 (of_raw [[(0, 1, 0); (0, 1, 1)]]) (of_raw [[(0, 1, 0)]]) = Err ValueError.
Proof. vm_compute. reflexivity. Qed.

(** With [order] below 1 the combined distances need not satisfy the triangle
    inequality (finding: any positive float is accepted). *)
Definition ex_raw3 : list (list (Z * Z * Z)) :=
  [[(0, 0, 0); (0, 0, 1)]; [(0, 1, 0); (0, 0, 1)]; [(0, 1, 0); (0, 1, 1)]].
Lemma keys01 (l : list fl) : increasing l -> (forall q, In q l <-> q = fz 0 \/ q = fz 1) -> l = [fz 0; fz 1].
Proof.
  intros HI H. assert (F01 : flt (fz 1) (fz 0) = false) by reflexivity.
  destruct l as [|a l]; [exfalso; apply (proj2 (H (fz 0))); auto|]. apply increasing_inv in HI. destruct HI as [HI HL].
  assert (NR : forall q, flt q q = false) by (intros; apply flt_irrefl).
  assert (a = fz 0).
  { destruct (proj1 (H a) (or_introl eq_refl)) as [->| ->]; [reflexivity|]. destruct (proj2 (H (fz 0)) (or_introl eq_refl)) as [F|F]; [now symmetry|]. apply HL in F. congruence. }
  subst a. destruct l as [|b l]; [exfalso; destruct (proj2 (H (fz 1)) (or_intror eq_refl)) as [F|F]; [apply fz_inj in F; discriminate|destruct F]|].
  apply increasing_inv in HI. destruct HI as [_ HL'].
  assert (b = fz 1).
  { destruct (proj1 (H b) (or_intror (or_introl eq_refl))) as [->| ->]; [|reflexivity]. specialize (HL (fz 0) (or_introl eq_refl)). rewrite NR in HL. discriminate. }
  subst b. destruct l as [|c l]; [reflexivity|]. exfalso. specialize (HL' c (or_introl eq_refl)).
  destruct (proj1 (H c) (or_intror (or_intror (or_introl eq_refl)))) as [->| ->]; [congruence|rewrite NR in HL'; discriminate].
Qed.
Theorem pairwise_distance_order_triangle_refuted E :
  trainable (of_raw ex_raw3) /\
  exists D, pairwise_distance_order E (Betti Pinf) (Pfin (1 / 2)) 1 1 (of_raw ex_raw3) (of_raw ex_raw3) = Ok D /\
    entry D 0 1 = Some (Some 1%R) /\ entry D 1 2 = Some (Some 1%R) /\ entry D 0 2 = Some (Some 4%R).
Proof.
  assert (HQ : forall q, In q (map pq (hd [] (of_raw ex_raw3))) <-> q = fz 0 \/ q = fz 1).
  { intros q. cbn. split; [intros [<-|[<-|[]]]; auto|]. intros [->| ->]; auto. }
  assert (HT : trainable (of_raw ex_raw3)).
  { split; [discriminate|]. split.
    - apply ex_finite. intros x t [<-|[<-|[<-|[]]]] H; repeat (destruct H as [<-|H]; [cbn; lia|]); destruct H.
    - intros q Hq. apply HQ in Hq. destruct Hq as [->| ->]; (split; [reflexivity|]); exists 1; intros x [<-|[<-|[<-|[]]]]; vm_compute; reflexivity. }
  split; [assumption|].
  assert (HG : good_parameters E (Betti Pinf) 1) by (split; [exact I|]; split; [lia|reflexivity]).
  destruct (pairwise_distance_ok E (Betti Pinf) 1 (of_raw ex_raw3) I HG HT I) as [g [_ [HM [_ [_ [_ H]]]]]].
  unfold pairwise_distance_order. rewrite (H 1 (of_raw ex_raw3) ltac:(lia) (trainable_transformable _ HT) I). cbn [bind]. eexists. split; [reflexivity|]. clear H.
  cbn [metric_grids] in HM. destruct HM as [[HI HK] HV].
  assert (Eg : map fst g = [fz 0; fz 1]).
  { rewrite map_map in HI, HK. cbn [fst] in HI, HK. apply keys01; [assumption|]. intros q. rewrite HK. apply HQ. }
  assert (HS : forall q e, In (q, e) g -> fst (fst e) = [0%Qc]).
  { intros q [[s st] ax] He. destruct (HV q s st) as [lo [hi [[[[x [pt [L1 [Hp Hv]]]] L3] _] [Ls [Z0 _]]]]]; [apply in_map_iff; exists (q, ((s, st), ax)); auto|]. cbn [fst].
    assert (Hq : q = fz 0 \/ q = fz 1) by (assert (F : In q (map fst g)) by (apply in_map_iff; exists (q, ((s, st), ax)); auto); rewrite Eg in F; destruct F as [<-|[<-|[]]]; auto).
    assert (lo = 0%Qc).
    { apply Qcle_antisym.
      - apply L3. exists (hd [] (of_raw ex_raw3)). destruct Hq as [->| ->]; [exists (pq_ 0 0 0)|exists (pq_ 0 0 1)]; (split; [now left|]); (split; [now left|]); left; reflexivity.
      - apply rows_of_In in Hp; destruct Hv as [Hv|Hv]; (assert (F : fle (Fin 0%Qc) (Fin lo) = true); [rewrite <- Hv|now apply Qcleb_le in F]);
        (destruct L1 as [<-|[<-|[<-|[]]]]; repeat (destruct Hp as [<-|Hp]; [reflexivity|]); destruct Hp). }
    subst lo. destruct s as [|z s]; [discriminate|]. rewrite zlen_cons in Ls. destruct s; [|rewrite zlen_cons in Ls; pose proof (zlen_nonneg s); lia].
    cbn in Z0. congruence. }
  destruct g as [|[q0 e0] [|[q1 e1] [|]]]; try discriminate. cbn [map fst] in Eg. assert (q0 = fz 0) by congruence. assert (q1 = fz 1) by congruence. subst q0 q1. clear Eg.
  pose proof (HS _ _ (or_introl eq_refl)) as S0. pose proof (HS _ _ (or_intror (or_introl eq_refl))) as S1.
  assert (HD : forall q e x y, fst (fst e) = [0%Qc] -> dval E (Betti Pinf) (q, e) x y = Rabs (IZR (alive_count 0%Qc (points_of q x)) - IZR (alive_count 0%Qc (points_of q y)))).
  { intros q e x y He. unfold dval, mink, vsub. cbn [mcurve fst snd mfactor exponent]. rewrite He. cbn [map combine fst snd norm rmax fold_right].
    change (mfactor (Betti Pinf) e) with 1%R. rewrite Rmax_left by (apply Rabs_pos). ring. }
  assert (HN : forall a b, (a = 0 \/ a = 1)%R -> (b = 0 \/ b = 1)%R -> norm (Pfin (1 / 2)) [a; b] = ((a + b) * (a + b))%R).
  { intros a b Ha Hb. cbn [norm map rsum fold_right]. assert (R1 : forall c, (c = 0 \/ c = 1)%R -> rpow (Rabs c) (1 / 2) = c).
    { intros c [->| ->]; [rewrite Rabs_R0; apply rpow_0; lra|rewrite Rabs_R1; apply rpow_1_l]. }
    rewrite !R1 by assumption. rewrite Rplus_0_r. replace (1 / (1 / 2))%R with (INR 2) by (cbn; field).
    destruct (Req_dec (a + b) 0) as [Z|Z]; [rewrite Z, rpow_0 by (cbn; lra); ring|]. rewrite rpow_pos by (destruct Ha, Hb; lra).
    rewrite Rpower_pow by (destruct Ha, Hb; lra). ring. }
  assert (HEn : forall XX i j x y, Znth XX i = Some x -> Znth XX j = Some y ->
    forall a b, (a = 0 \/ a = 1)%R -> (b = 0 \/ b = 1)%R ->
    Rabs (IZR (alive_count 0%Qc (points_of (fz 0) x)) - IZR (alive_count 0%Qc (points_of (fz 0) y))) = a ->
    Rabs (IZR (alive_count 0%Qc (points_of (fz 1) x)) - IZR (alive_count 0%Qc (points_of (fz 1) y))) = b ->
    entry (map (map (combine_order (Pfin (1 / 2)))) (map (fun y => map (fun x => map (fun e => Some (dval E (Betti Pinf) e y x)) [(fz 0, e0); (fz 1, e1)]) XX) XX)) i j
    = Some (Some ((a + b) * (a + b))%R)).
  { intros XX i j x y Hi Hj a b Ha Hb Ea Eb. unfold entry. rewrite !Znth_map, Hi. cbn [option_map]. rewrite !Znth_map, Hj. cbn [option_map].
    rewrite combine_order_map. cbn [map]. rewrite !HD by assumption. rewrite Ea, Eb. now rewrite HN. }
  assert (R10 : Rabs (1 - 0) = 1%R) by (rewrite Rabs_right; lra). assert (R01 : Rabs (0 - 1) = 1%R) by (rewrite Rabs_left; lra).
  assert (R00 : Rabs (0 - 0) = 0%R) by (rewrite Rabs_right; lra). assert (R11 : Rabs (1 - 1) = 0%R) by (rewrite Rabs_right; lra).
  split; [|split].
  - rewrite (HEn (of_raw ex_raw3) 0 1 _ _ eq_refl eq_refl 1%R 0%R (or_intror eq_refl) (or_introl eq_refl) R01 R00). apply f_equal, f_equal; ring.
  - rewrite (HEn (of_raw ex_raw3) 1 2 _ _ eq_refl eq_refl 0%R 1%R (or_introl eq_refl) (or_intror eq_refl) R11 R01). apply f_equal, f_equal; ring.
  - rewrite (HEn (of_raw ex_raw3) 0 2 _ _ eq_refl eq_refl 1%R 1%R (or_intror eq_refl) (or_intror eq_refl) R01 R01). apply f_equal, f_equal; ring.
Qed.

Print Assumptions silhouette_spec.
Print Assumptions silhouette_bounds.
Print Assumptions silhouette_trivial.
Print Assumptions silhouette_ignores_diagonal.
Print Assumptions silhouette_trivial_refuted.
Print Assumptions pairwise_distance_spec.
Print Assumptions pairwise_distance_pseudo_metric.
Print Assumptions pairwise_distance_order_pseudo_metric.
Print Assumptions pairwise_distance_jobs.
Print Assumptions pairwise_point_distance_spec.
Print Assumptions amplitude_spec.
Print Assumptions amplitude_is_distance_to_trivial.
Print Assumptions amplitude_is_optimal_matching.
Print Assumptions amplitude_bounds_point_distance.
Print Assumptions amplitude_ignores_diagonal.
Print Assumptions bottleneck_amplitude_no_points.
Print Assumptions pairwise_distance_order_triangle_refuted.
