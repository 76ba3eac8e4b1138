(** C92: the amplitudes of two diagrams differ by at most their distance, for
    every metric, per homology dimension and for combinations of any order. *)
From Coq Require Import Reals Lra Permutation.
From Verif Require Import Np NpFacts Fl FlFacts DiagTypes DiagModel DiagSpec DiagProofs DiagProofs2
  VecModel VecSpec SliceFacts VecProofs VecProofs2 VecProofs3 VecProofs4 VecThms RNp RNormFacts
  MetricModel MetricSpec MetricProofs MetricProofs2 MetricProofs3 MetricProofs4 MetricProofs5 MetricThms StabSpec StabThms MatchThms.
Open Scope Z_scope.

Lemma norm_vsub p u v : valid_p p -> length u = length v -> (norm p u <= norm p (vsub u v) + norm p v)%R.
Proof.
  intros Hp L. pose proof (mink_triangle p u v (map (fun _ => 0%R) u) Hp L) as T. unfold mink in T. rewrite map_length in T. specialize (T (eq_sym L)).
  assert (Z : forall w z : list R, length w = length z -> (forall a, In a z -> a = 0%R) -> vsub w z = w).
  { induction w as [|a w IH]; intros [|b z] LL H; try discriminate; [reflexivity|]. unfold vsub in *. cbn [combine map fst snd]. rewrite (H b) by now left. rewrite Rminus_0_r. f_equal.
    apply IH; [now injection LL|]. intros; apply H; now right. }
  assert (ZZ : forall a, In a (map (fun _ : R => 0%R) u) -> a = 0%R) by (intros a Ha; apply in_map_iff in Ha; now destruct Ha as [x [<- _]]).
  rewrite (Z u), (Z v) in T by (rewrite ?map_length; auto). exact T.
Qed.
Lemma aval_nonneg E m n e x : good_parameters E m n -> entry_ok m n (snd e) -> (0 <= aval E m e x)%R.
Proof. intros HG HE. unfold aval. apply Rmult_le_pos; [apply norm_nonneg|]. exact (proj2 (mfactor_ok E m n (snd e) HG HE)). Qed.
Lemma dval_lipschitz E m n e x y : vectorised m -> good_parameters E m n -> entry_ok m n (snd e) ->
  okpt m (points_of (fst e) x) -> okpt m (points_of (fst e) y) -> (aval E m e x <= dval E m e x y + aval E m e y)%R.
Proof.
  intros HV HG HE Hx Hy. unfold dval, aval, mink. pose proof (proj2 (mfactor_ok E m n (snd e) HG HE)) as Hc. rewrite <- Rmult_plus_distr_r. apply Rmult_le_compat_r; [assumption|].
  apply norm_vsub; [apply ge1_valid, HG|]. apply length_zlen. rewrite !(mcurve_len E m n) by assumption. reflexivity.
Qed.
Lemma aval_matching E m e x : ~ vectorised m -> ge1 (exponent m) -> proper (points_of (fst e) x) ->
  is_matching_distance (exponent m) (off_diagonal (points_of (fst e) x)) [] (aval E m e x).
Proof.
  intros HV Hp HP. apply matching_distance_nil; [now apply (ge1_pos (exponent m))| |].
  - intros p Hin. apply off_diagonal_In in Hin. apply HP. tauto.
  - unfold aval. rewrite <- (half_norm_off (exponent m) (points_of (fst e) x)) by now apply (ge1_pos (exponent m)). destruct m; cbn in HV; try tauto; cbn [mfactor mcurve exponent]; ring.
Qed.
Lemma pval_lipschitz E m delta e x y : ~ vectorised m -> ge1 (exponent m) ->
  approximates delta (exponent m)
    (match m with Bottleneck => x_bottleneck E | Wasserstein p => x_wasserstein E p | _ => fun _ _ => 0%R end) ->
  proper (points_of (fst e) x) -> proper (points_of (fst e) y) ->
  (aval E m e x <= pval E m (fst e) x y + aval E m e y)%R /\ (aval E m e y <= pval E m (fst e) x y + aval E m e x)%R /\ (0 <= pval E m (fst e) x y)%R.
Proof.
  intros HV Hp HA Px Py. destruct (matching_distance_exists (exponent m) (off_diagonal (points_of (fst e) x)) (off_diagonal (points_of (fst e) y)) Hp) as [r Hr].
  pose proof (aval_matching E m e x HV Hp Px) as Ax. pose proof (aval_matching E m e y HV Hp Py) as Ay. pose proof (HA _ _ _ Hr) as [L _]. fold (pval E m (fst e) x y) in L.
  pose proof (matching_distance_triangle _ _ _ _ _ _ _ Hp Hr Ay Ax) as T1. pose proof (matching_distance_triangle _ _ _ _ _ _ _ Hp (matching_distance_symmetric _ _ _ _ Hp Hr) Ax Ay) as T2.
  assert (0 <= r)%R. { destruct Hr as [[M [_ HC]] _]. apply (matching_cost_iff _ _ _ (ge1_pos _ Hp)) in HC. subst r. apply norm_nonneg. }
  lra.
Qed.

(** The algorithm for bottleneck or Wasserstein distances never undershoots by
    more than its relative accuracy allows; nothing is asked for other metrics. *)
Definition accurate (E : externals) (m : metric) (delta : R) : Prop :=
  vectorised m \/
  approximates delta (exponent m)
    (match m with Bottleneck => x_bottleneck E | Wasserstein p => x_wasserstein E p | _ => fun _ _ => 0%R end).
Lemma both E m delta n X : good_parameters E m n -> trainable X -> defined_on m (map pq (hd [] X)) X -> accurate E m delta ->
  exists (g : list (fl * grid)) (h : fl * grid -> diagram -> diagram -> R),
    dimensions_of X (map fst g) /\
    (forall n_jobs Y, 1 <= n_jobs -> transformable (map pq (hd [] X)) Y -> defined_on m (map pq (hd [] X)) Y ->
      pairwise_distance E m n n_jobs X Y = Ok (map (fun y => map (fun x => map (fun e => Some (h e y x)) g) X) Y) /\
      ((m = Bottleneck -> has_points (map pq (hd [] X)) Y) -> amplitude E m n n_jobs X Y = Ok (map (fun y => map (fun e => Some (aval E m e y)) g) Y)) /\
      forall e y x, In e g -> In y Y -> In x X ->
        (0 <= aval E m e x)%R /\ (0 <= aval E m e y)%R /\ (0 <= h e y x)%R /\ (aval E m e y <= h e y x + aval E m e x)%R /\ (aval E m e x <= h e y x + aval E m e y)%R).
Proof.
  intros HG HT HD HAcc. assert (Hn : 1 <= n) by (destruct HG as [_ G]; destruct m; lia). pose proof (trainable_transformable X HT) as HTT.
  destruct (fit_metric_ok m n X Hn HT) as [g0 [E0 [_ [_ [HDm _]]]]].
  destruct (amplitude_ok E m n X HG HT) as [g [E1 [_ [_ [HE [HK HAm]]]]]]. assert (g0 = g) by congruence. subst g0. exists g.
  assert (HP : forall Y y e, transformable (map pq (hd [] X)) Y -> defined_on m (map pq (hd [] X)) Y -> In y Y -> In e g -> okpt m (points_of (fst e) y)).
  { intros Y y [q e] HY HDY Hy He. apply (okpt_of m (map pq (hd [] X)) Y); auto. apply HK. apply in_map_iff. exists (q, e). auto. }
  destruct HAcc as [HV|HA].
  - destruct (pairwise_distance_ok E m n X HV HG HT HD) as [g' [E1' [_ [_ [_ [_ H]]]]]]. assert (g' = g) by congruence. subst g'.
    exists (dval E m). split; [exact HDm|]. intros n_jobs Y HJ HY HDY. split; [now apply H|]. split; [intros HB; now apply HAm|]. intros [q e] y x He Hy Hx.
    assert (Ee : entry_ok m n (snd (q, e))) by now apply (HE q). pose proof (HP Y y (q, e) HY HDY Hy He) as Py. pose proof (HP X x (q, e) HTT HD Hx He) as Px.
    split; [now apply (aval_nonneg E m n)|]. split; [now apply (aval_nonneg E m n)|]. split; [now apply (dval_nonneg E m n)|]. split; [now apply (dval_lipschitz E m n)|].
    rewrite (dval_sym E m). now apply (dval_lipschitz E m n).
  - assert (VD : vectorised m \/ ~ vectorised m) by (destruct m; cbn; tauto). destruct VD as [HV|HV].
    + destruct (pairwise_distance_ok E m n X HV HG HT HD) as [g' [E1' [_ [_ [_ [_ H]]]]]]. assert (g' = g) by congruence. subst g'.
      exists (dval E m). split; [exact HDm|]. intros n_jobs Y HJ HY HDY. split; [now apply H|]. split; [intros HB; now apply HAm|]. intros [q e] y x He Hy Hx.
      assert (Ee : entry_ok m n (snd (q, e))) by now apply (HE q). pose proof (HP Y y (q, e) HY HDY Hy He) as Py. pose proof (HP X x (q, e) HTT HD Hx He) as Px.
      split; [now apply (aval_nonneg E m n)|]. split; [now apply (aval_nonneg E m n)|]. split; [now apply (dval_nonneg E m n)|]. split; [now apply (dval_lipschitz E m n)|].
      rewrite (dval_sym E m). now apply (dval_lipschitz E m n).
    + destruct (pairwise_points_ok E m n X HV Hn HT) as [g' [E1' [_ [_ [_ H]]]]]. assert (g' = g) by congruence. subst g'.
      exists (fun e => pval E m (fst e)). split; [exact HDm|]. intros n_jobs Y HJ HY HDY. split; [now apply H|]. split; [intros HB; now apply HAm|]. intros [q e] y x He Hy Hx.
      assert (Ee : entry_ok m n (snd (q, e))) by now apply (HE q). pose proof (HP Y y (q, e) HY HDY Hy He) as Py. pose proof (HP X x (q, e) HTT HD Hx He) as Px.
      destruct (pval_lipschitz E m delta (q, e) y x HV (proj1 HG) HA (proj1 Py) (proj1 Px)) as [L1 [L2 L3]].
      split; [now apply (aval_nonneg E m n)|]. split; [now apply (aval_nonneg E m n)|]. auto.
Qed.

(** ** C92 *)
Theorem amplitude_lipschitz E m delta n_bins X :
  good_parameters E m n_bins -> trainable X -> defined_on m (map pq (hd [] X)) X -> accurate E m delta ->
  (m = Bottleneck -> has_points (map pq (hd [] X)) X) ->
  exists dims, dimensions_of X dims /\
    forall n_jobs Y, 1 <= n_jobs -> transformable (map pq (hd [] X)) Y -> defined_on m (map pq (hd [] X)) Y ->
    (m = Bottleneck -> has_points (map pq (hd [] X)) Y) ->
    exists AX AY D, amplitude E m n_bins n_jobs X X = Ok AX /\ amplitude E m n_bins n_jobs X Y = Ok AY /\
      pairwise_distance E m n_bins n_jobs X Y = Ok D /\
      forall i j c, 0 <= i < zlen Y -> 0 <= j < zlen X -> 0 <= c < zlen dims ->
        exists a b d, entry AY i c = Some (Some a) /\ entry AX j c = Some (Some b) /\ value3 D i j c = Some (Some d) /\
          (Rabs (a - b) <= d)%R.
Proof.
  intros HG HT HD HA HBX. destruct (both E m delta n_bins X HG HT HD HA) as [g [h [HDm H]]]. exists (map fst g). split; [exact HDm|]. intros n_jobs Y HJ HY HDY HBY.
  destruct (H n_jobs Y HJ HY HDY) as [HP [HAm HL]]. destruct (H n_jobs X HJ (trainable_transformable X HT) HD) as [_ [HAX _]].
  do 3 eexists. split; [now apply HAX|]. split; [now apply HAm|]. split; [exact HP|]. intros i j c Hi Hj Hc. rewrite zlen_map in Hc.
  destruct (Znth_ex Y i Hi) as [y Ey], (Znth_ex X j Hj) as [x Ex], (Znth_ex g c Hc) as [e Ee]. exists (aval E m e y), (aval E m e x), (h e y x).
  unfold entry, value3, entry. rewrite !Znth_map, Ey, Ex. cbn [option_map]. rewrite !Znth_map, Ee, Ex. cbn [option_map]. rewrite Znth_map, Ee. split; [reflexivity|]. split; [reflexivity|]. split; [reflexivity|].
  destruct (HL e y x) as [_ [_ [_ [L1 L2]]]]; try (eapply Znth_In; eassumption). apply Rabs_le. lra.
Qed.
Theorem amplitude_order_lipschitz E m delta order n_bins n_jobs X Y :
  good_parameters E m n_bins -> ge1 order -> trainable X -> defined_on m (map pq (hd [] X)) X -> accurate E m delta ->
  1 <= n_jobs -> transformable (map pq (hd [] X)) Y -> defined_on m (map pq (hd [] X)) Y ->
  (m = Bottleneck -> has_points (map pq (hd [] X)) X /\ has_points (map pq (hd [] X)) Y) ->
  exists AX AY D, amplitude_order E m order n_bins n_jobs X X = Ok AX /\ amplitude_order E m order n_bins n_jobs X Y = Ok AY /\
    pairwise_distance_order E m order n_bins n_jobs X Y = Ok D /\
    forall i j, 0 <= i < zlen Y -> 0 <= j < zlen X ->
      exists a b d, Znth AY i = Some (Some a) /\ Znth AX j = Some (Some b) /\ entry D i j = Some (Some d) /\
        (Rabs (a - b) <= d)%R.
Proof.
  intros HG HO HT HD HA HJ HY HDY HB. destruct (both E m delta n_bins X HG HT HD HA) as [g [h [_ H]]].
  destruct (H n_jobs Y HJ HY HDY) as [HP [HAm HL]]. destruct (H n_jobs X HJ (trainable_transformable X HT) HD) as [_ [HAX _]].
  unfold amplitude_order, pairwise_distance_order. rewrite HP, HAX, HAm by (intros Em; now apply HB). cbn [bind]. do 3 eexists. split; [reflexivity|]. split; [reflexivity|]. split; [reflexivity|].
  intros i j Hi Hj. destruct (Znth_ex Y i Hi) as [y Ey], (Znth_ex X j Hj) as [x Ex].
  exists (norm order (map (fun e => aval E m e y) g)), (norm order (map (fun e => aval E m e x) g)), (norm order (map (fun e => h e y x) g)).
  unfold entry. rewrite !Znth_map, Ey, Ex. cbn [option_map]. rewrite !Znth_map, Ex. cbn [option_map]. rewrite !combine_order_map. split; [reflexivity|]. split; [reflexivity|]. split; [reflexivity|].
  assert (HL' : forall e, In e g -> (0 <= aval E m e x)%R /\ (0 <= aval E m e y)%R /\ (0 <= h e y x)%R /\ (aval E m e y <= h e y x + aval E m e x)%R /\ (aval E m e x <= h e y x + aval E m e y)%R).
  { intros e He. apply HL; [assumption| |]; eapply Znth_In; eassumption. }
  pose proof (norm_map_triangle order (fun e => h e y x) (fun e => aval E m e x) (fun e => aval E m e y) g HO ltac:(intros e He; destruct (HL' e He) as [? [? [? [? ?]]]]; split; assumption)).
  pose proof (norm_map_triangle order (fun e => h e y x) (fun e => aval E m e y) (fun e => aval E m e x) g HO ltac:(intros e He; destruct (HL' e He) as [? [? [? [? ?]]]]; split; assumption)).
  apply Rabs_le. lra.
Qed.

Example ex_lipschitz : good_parameters stab_E Bottleneck 3 /\ accurate stab_E Bottleneck 0 /\ accurate ex_E (Betti (Pfin 2)) 0 /\ trainable (of_raw ex_raw0) /\
  defined_on Bottleneck (map pq (hd [] (of_raw ex_raw0))) (of_raw ex_raw0) /\ has_points (map pq (hd [] (of_raw ex_raw0))) (of_raw ex_raw0).
Proof.
  destruct match_example as [H1 _]. destruct ex_trivial as [T [_ HP]]. split; [split; [exact I|lia]|]. split; [right; exact H1|]. split; [left; exact I|]. split; [exact T|]. split; [exact I|exact HP].
Qed.

Print Assumptions amplitude_lipschitz.
Print Assumptions amplitude_order_lipschitz.
