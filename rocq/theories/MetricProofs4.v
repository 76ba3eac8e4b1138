(** The transformers PairwiseDistance, Amplitude and Silhouette. *)
From Coq Require Import Reals Lra Permutation.
From Verif Require Import Np NpFacts Fl FlFacts DiagTypes DiagModel DiagSpec DiagProofs DiagProofs2
  VecModel VecSpec SliceFacts VecProofs VecProofs2 VecProofs3 VecProofs4 RNp RNormFacts MetricModel MetricSpec MetricProofs MetricProofs2 MetricProofs3.
Open Scope Z_scope.

Lemma grid_axis P dims n q a : In q dims -> grid_of P dims n q (fst a) (snd a) -> axis_ok n a.
Proof.
  intros Hq [lo [hi [[HL [m [HM HR]]] HG]]]. exists lo, hi. split; [|assumption].
  destruct HL as [HL1 HL2], HM as [HM1 HM2]. destruct HR as [[_ ->]|[_ [_ HR]]]; [now apply HL2|]. apply HR. exists q. auto.
Qed.

Lemma fit_metric_ok m n X : 1 <= n -> trainable X ->
  exists g, fit_metric m n X = Ok (map fst g, g) /\ g <> [] /\ metric_grids m n X g /\ dimensions_of X (map fst g) /\
    (forall q, In q (map fst g) -> isnan q = false) /\ (forall q e, In (q, e) g -> entry_ok m n e).
Proof.
  intros Hn HT. destruct (fit_ok (uses_lifetimes m) n X Hn HT) as [dims [b [E1 [Hd [HD [HN [E2 [Ek HG]]]]]]]].
  exists b. unfold fit_metric. rewrite E1. cbn [bind]. rewrite E2. cbn [bind]. rewrite Ek. split; [reflexivity|].
  split; [rewrite <- Ek in Hd; destruct b; [easy|discriminate]|].
  assert (Hin : forall q e, In (q, e) b -> In q dims) by (intros q e He; rewrite <- Ek; apply in_map_iff; exists (q, e); auto).
  split; [|split; [assumption|split; [assumption|]]].
  - assert (F : uses_lifetimes m = false -> fitted_grids n X (map (fun e => (fst e, fst (snd e))) b)).
    { intros Em. unfold fitted_grids. rewrite map_map. cbn [fst]. change (map (fun x => fst x) b) with (map fst b). rewrite Ek. split; [assumption|].
      intros q s st Hin'. apply in_map_iff in Hin'. destruct Hin' as [[q' [a0 a1]] [Eq He]]. cbn [fst snd] in Eq.
      assert (q' = q) by congruence. assert (a0 = (s, st)) by congruence. subst. apply (HG q (s, st) a1 He). assumption. }
    destruct m; cbn [metric_grids]; try (apply F; reflexivity). unfold fitted_grids2. rewrite Ek. split; [assumption|]. intros q s0 st0 s1 st1 He.
    apply (HG q (s0, st0) (s1, st1) He). reflexivity.
  - intros q [a0 a1] He. specialize (HG q a0 a1 He). unfold entry_ok. cbn [fst snd].
    destruct (uses_lifetimes m) eqn:Em.
    + destruct HG as [HG _]. destruct (HG eq_refl) as [G0 G1]. split; [eapply grid_axis; [|exact G0]; eauto|intros _; eapply grid_axis; [|exact G1]; eauto].
    + destruct HG as [_ HG]. split; [eapply grid_axis; [|apply HG; reflexivity]; eauto|discriminate].
Qed.

Lemma proper_points q Y y : finite_points Y -> In y Y -> proper (points_of q y).
Proof.
  intros HF Hy p Hp. apply in_map_iff in Hp. destruct Hp as [r [<- Hr]]. destruct (HF y r Hy (rows_of_In _ _ _ Hr)) as [b [d [-> [-> L]]]]. exact L.
Qed.
Lemma trainable_transformable X : trainable X -> transformable (map pq (hd [] X)) X.
Proof.
  intros [H1 [H2 H3]]. split; [intros ->; now apply H1|]. split; [assumption|]. intros q Hq. now apply H3.
Qed.
Lemma uniform_points q Y ys : finite_points Y -> balanced q Y -> incl ys Y -> uniform (map (points_of q) ys).
Proof.
  intros _ [n H] I. exists n. intros x Hx. apply in_map_iff in Hx. destruct Hx as [y [<- Hy]]. unfold points_of. rewrite zlen_map. apply H. now apply I.
Qed.
Lemma sil_ok_points m dims Y y q : defined_on m dims Y -> In y Y -> In q dims -> sil_ok m (points_of q y).
Proof. intros H Hy Hq. destruct m; try exact I. destruct H as [H|H]; [left; exact H|right; auto]. Qed.

Lemma map_to_q_points q Y ys : finite_points Y -> incl ys Y -> map (fun x => to_q (rows_of q x)) ys = map (points_of q) ys.
Proof. intros HF I. apply map_ext_in. intros y Hy. apply (points_of_to_q q Y); auto. Qed.

Definition dval (E : externals) (m : metric) (e : fl * grid) (y x : diagram) : R :=
  (mink (exponent m) (mcurve E m (snd e) (points_of (fst e) y)) (mcurve E m (snd e) (points_of (fst e) x)) * mfactor m (snd e))%R.
Definition aval (E : externals) (m : metric) (e : fl * grid) (y : diagram) : R :=
  (norm (exponent m) (mcurve E m (snd e) (points_of (fst e) y)) * mfactor m (snd e))%R.

Lemma map_over_keys {S V} (g : list (fl * S)) (h : fl -> V) (h' : fl * S -> V) : (forall e, In e g -> h (fst e) = h' e) -> map h (map fst g) = map h' g.
Proof. intros H. rewrite map_map. now apply map_ext_in. Qed.

Lemma pairwise_loop E m n_jobs g X Y (h : fl * grid -> diagram -> diagram -> option R) :
  1 <= n_jobs -> g <> [] -> increasing (map fst g) -> (forall q, In q (map fst g) -> isnan q = false) ->
  transformable (map fst g) X -> transformable (map fst g) Y ->
  (forall q e xs, In (q, e) g -> incl xs X -> distances E m e (map (points_of q) Y) (map (points_of q) xs) = Ok (map (fun y => map (h (q, e) y) xs) Y)) ->
  parallel_pairwise (fun dim A B => do g0 <- dict_get g dim; distances E m g0 A B) Y X (map fst g) n_jobs =
  Ok (map (fun y => map (fun x => map (fun e => h e y x) g) X) Y).
Proof.
  intros HJ Hg HI HN [X0 [XF XB]] [Y0 [YF YB]] H.
  rewrite (parallel_pairwise_ok _ (fun q y x => match dict_get g q with Ok e => h (q, e) y x | Err _ => None end)); try assumption.
  - f_equal. apply map_ext. intros y. apply map_ext. intros x. apply map_over_keys. intros [q e] He. cbn [fst]. now rewrite (increasing_keys g q e HI HN He).
  - destruct g; [easy|discriminate].
  - intros q xs Hq _ I. apply in_map_iff in Hq. destruct Hq as [[q' e] [Eq He]]. cbn [fst] in Eq. subst q'. rewrite (increasing_keys g q e HI HN He). cbn [bind].
    rewrite (map_to_q_points q Y Y YF (incl_refl _)), (map_to_q_points q X xs XF I). now apply H.
Qed.

Lemma pairwise_distance_ok E m n X : vectorised m -> good_parameters E m n -> trainable X -> defined_on m (map pq (hd [] X)) X ->
  exists g, fit_metric m n X = Ok (map fst g, g) /\ metric_grids m n X g /\ g <> [] /\ (forall q e, In (q, e) g -> entry_ok m n e) /\ (forall q, In q (map fst g) <-> In q (map pq (hd [] X))) /\
    forall n_jobs Y, 1 <= n_jobs -> transformable (map pq (hd [] X)) Y -> defined_on m (map pq (hd [] X)) Y ->
    pairwise_distance E m n n_jobs X Y = Ok (map (fun y => map (fun x => map (fun e => Some (dval E m e y x)) g) X) Y).
Proof.
  intros HV HGP HT HDX. assert (Hn : 1 <= n) by (destruct HGP as [_ G]; destruct m; lia).
  destruct (fit_metric_ok m n X Hn HT) as [g [E1 [Hg [HM [[HI HK] [HN HE]]]]]]. exists g. repeat (split; [assumption|]).
  intros n_jobs Y HJ HY HDY. unfold pairwise_distance. rewrite E1. cbn [bind fst snd].
  assert (HT' : transformable (map fst g) X) by (eapply transformable_ext; [|apply (trainable_transformable X HT)]; intros q; now rewrite HK).
  assert (HY' : transformable (map fst g) Y) by (eapply transformable_ext; [|exact HY]; intros q; now rewrite HK).
  apply pairwise_loop; try assumption. intros q e xs He I.
  assert (Hq : In q (map fst g)) by (apply in_map_iff; exists (q, e); auto). assert (Hq' : In q (map pq (hd [] X))) by now apply HK.
  destruct HT' as [_ [XF XB]], HY' as [_ [YF YB]].
  rewrite (distances_ok E m n); try assumption.
  - rewrite map_map. f_equal. apply map_ext. intros y. rewrite map_map. reflexivity.
  - now apply (HE q).
  - apply (uniform_points q Y); auto. apply incl_refl.
  - apply (uniform_points q X); auto.
  - intros x Hx. apply in_map_iff in Hx. destruct Hx as [y [<- Hy]]. split; [now apply (proper_points q Y)|now apply (sil_ok_points m (map pq (hd [] X)) Y)].
  - intros x Hx. apply in_map_iff in Hx. destruct Hx as [y [<- Hy]]. apply I in Hy. split; [now apply (proper_points q X)|now apply (sil_ok_points m (map pq (hd [] X)) X)].
Qed.

Lemma vectorise_loop {V S} (F : S -> list (list (Qc * Qc)) -> res (list V)) (h : fl * S -> diagram -> V) (d : V) (g : list (fl * S)) Y n_jobs :
  1 <= n_jobs -> g <> [] -> increasing (map fst g) -> (forall q, In q (map fst g) -> isnan q = false) ->
  transformable (map fst g) Y ->
  (forall q e ys, In (q, e) g -> incl ys Y -> F e (map (points_of q) ys) = Ok (map (h (q, e)) ys)) ->
  vectorise (fun dim batch => do s <- dict_get g dim; F s batch) Y (map fst g) n_jobs =
  Ok (map (fun y => map (fun e => h e y) g) Y).
Proof.
  intros HJ Hg HI HN [Y0 [YF YB]] H.
  rewrite (vectorise_ok _ (fun q y => match dict_get g q with Ok e => h (q, e) y | Err _ => d end)); try assumption.
  - f_equal. apply map_ext. intros y. apply map_over_keys. intros [q e] He. cbn [fst]. now rewrite (increasing_keys g q e HI HN He).
  - destruct g; [easy|discriminate].
  - intros q ys Hq _ I. apply in_map_iff in Hq. destruct Hq as [[q' e] [Eq He]]. cbn [fst] in Eq. subst q'. rewrite (increasing_keys g q e HI HN He). cbn [bind].
    rewrite (map_to_q_points q Y ys YF I). now apply H.
Qed.



Lemma amplitude_ok E m n X : good_parameters E m n -> trainable X ->
  exists g, fit_metric m n X = Ok (map fst g, g) /\ metric_grids m n X g /\ g <> [] /\ (forall q e, In (q, e) g -> entry_ok m n e) /\ (forall q, In q (map fst g) <-> In q (map pq (hd [] X))) /\
    forall n_jobs Y, 1 <= n_jobs -> transformable (map pq (hd [] X)) Y -> defined_on m (map pq (hd [] X)) Y ->
    (m = Bottleneck -> has_points (map pq (hd [] X)) Y) ->
    amplitude E m n n_jobs X Y = Ok (map (fun y => map (fun e => Some (aval E m e y)) g) Y).
Proof.
  intros HGP HT. assert (Hn : 1 <= n) by (destruct HGP as [_ G]; destruct m; lia).
  destruct (fit_metric_ok m n X Hn HT) as [g [E1 [Hg [HM [[HI HK] [HN HE]]]]]]. exists g. repeat (split; [assumption|]).
  intros n_jobs Y HJ HY HDY HBn. unfold amplitude. rewrite E1. cbn [bind fst snd].
  assert (HY' : transformable (map fst g) Y) by (eapply transformable_ext; [|exact HY]; intros q; now rewrite HK).
  apply (vectorise_loop (amplitudes E m) (fun e y => Some (aval E m e y)) None); try assumption. intros q e ys He I.
  assert (Hq : In q (map fst g)) by (apply in_map_iff; exists (q, e); auto). assert (Hq' : In q (map pq (hd [] X))) by now apply HK.
  destruct HY' as [_ [YF YB]].
  rewrite (amplitudes_ok E m n); try assumption.
  - rewrite map_map. reflexivity.
  - now apply (HE q).
  - apply (uniform_points q Y); auto.
  - intros Em x Hx. apply in_map_iff in Hx. destruct Hx as [y [<- Hy]]. specialize (HBn Em y q (I y Hy) Hq'). unfold points_of. destruct (rows_of q y); [easy|discriminate].
  - intros x Hx. apply in_map_iff in Hx. destruct Hx as [y [<- Hy]]. apply I in Hy. split; [now apply (proper_points q Y)|now apply (sil_ok_points m (map pq (hd [] X)) Y)].
Qed.

Lemma silhouette_transform_ok power n X : 1 <= n -> pos_p power -> trainable X ->
  exists g, fitted_grids n X g /\ forall n_jobs Y, 1 <= n_jobs -> transformable (map pq (hd [] X)) Y -> defined_on (Silhouette Pinf power) (map pq (hd [] X)) Y ->
    silhouette_transform power n n_jobs X Y = Ok (map (fun y => map (fun e => Some (map (silv power (points_of (fst e) y)) (fst (snd e)))) g) Y).
Proof.
  intros Hn Hp HT. destruct (fit_one_axis n X Hn HT) as [g [E1 [E2 [Hg [HG HN]]]]]. exists g. split; [assumption|]. intros n_jobs Y HJ HY HD.
  unfold silhouette_transform. rewrite E1. cbn [bind]. rewrite E2. cbn [bind]. destruct HG as [[HI HK] _].
  assert (HY' : transformable (map fst g) Y) by (eapply transformable_ext; [|exact HY]; intros q; now rewrite HK).
  apply (vectorise_loop (fun s batch => silhouettes batch (fst s) power) (fun e y => Some (map (silv power (points_of (fst e) y)) (fst (snd e)))) None); try assumption.
  intros q e ys He I. unfold silhouettes. rewrite mapM_map. apply mapM_Ok. intros y Hy. cbn [fst snd]. apply I in Hy.
  assert (Hq : In q (map pq (hd [] X))) by (apply HK; apply in_map_iff; exists (q, e); auto).
  apply silhouette_ok; [apply (proper_points q Y); [apply HY|assumption]|assumption|]. now apply (sil_ok_points (Silhouette Pinf power) (map pq (hd [] X)) Y).
Qed.
