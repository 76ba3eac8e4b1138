(** Metric axioms, trivial diagrams, diagonal points, matchings. *)
From Coq Require Import Reals Lra Permutation.
From Verif Require Import Np NpFacts Fl FlFacts DiagTypes DiagModel DiagSpec DiagProofs DiagProofs2
  VecModel VecSpec SliceFacts VecProofs VecProofs2 VecProofs3 VecProofs4 RNp RNormFacts MetricModel MetricSpec MetricProofs MetricProofs2 MetricProofs3 MetricProofs4.
Open Scope Z_scope.

(** *** dval *)
Lemma dval_nonneg E m n e x y : good_parameters E m n -> entry_ok m n (snd e) -> (0 <= dval E m e x y)%R.
Proof. intros HG HE. apply Rmult_le_pos; [apply mink_nonneg|]. exact (proj2 (mfactor_ok E m n (snd e) HG HE)). Qed.
Lemma dval_sym E m e x y : dval E m e x y = dval E m e y x.
Proof. unfold dval. now rewrite mink_sym. Qed.
Lemma dval_refl E m n e x : good_parameters E m n -> dval E m e x x = 0%R.
Proof. intros [HG _]. unfold dval. rewrite mink_refl; [ring|]. now apply (ge1_pos (exponent m)). Qed.
Lemma ge1_valid p : ge1 p -> valid_p p.
Proof. destruct p; cbn; auto. Qed.

Definition okpt (m : metric) (x : list (Qc * Qc)) : Prop := proper x /\ sil_ok m x.
Lemma mcurve_len E m n g x : vectorised m -> good_parameters E m n -> entry_ok m n g -> okpt m x -> zlen (mcurve E m g x) = curve_len m n.
Proof. intros HV HG HE [H1 H2]. apply (is_curve_len E m n g x); try assumption. now apply mcurve_ok. Qed.
Lemma dval_triangle E m n e x y z : vectorised m -> good_parameters E m n -> entry_ok m n (snd e) ->
  okpt m (points_of (fst e) x) -> okpt m (points_of (fst e) y) -> okpt m (points_of (fst e) z) ->
  (dval E m e x z <= dval E m e x y + dval E m e y z)%R.
Proof.
  intros HV HG HE Hx Hy Hz. unfold dval. pose proof (proj2 (mfactor_ok E m n (snd e) HG HE)) as Hc. rewrite <- Rmult_plus_distr_r. apply Rmult_le_compat_r; [assumption|].
  apply mink_triangle; [apply ge1_valid, HG| |]; apply length_zlen; rewrite !(mcurve_len E m n) by assumption; reflexivity.
Qed.

(** is_distance / is_amplitude *)
Lemma dval_is E m n e x y : vectorised m -> good_parameters E m n -> entry_ok m n (snd e) ->
  okpt m (points_of (fst e) x) -> okpt m (points_of (fst e) y) ->
  is_distance E m n (snd e) (points_of (fst e) x) (points_of (fst e) y) (dval E m e x y).
Proof.
  intros HV HG HE Hx Hy. do 2 eexists. exists (mfactor m (snd e)). eexists.
  split; [apply (mcurve_ok E m n (snd e) _ HG HE (proj1 Hx) (proj2 Hx))|]. split; [apply (mcurve_ok E m n (snd e) _ HG HE (proj1 Hy) (proj2 Hy))|].
  split; [apply (mfactor_ok E m n (snd e) HG HE)|]. split; [apply length_zlen; rewrite !(mcurve_len E m n) by assumption; reflexivity|].
  split; [apply norm_is_norm, ge1_pos, HG|]. unfold dval, mink, vsub. ring.
Qed.
Lemma aval_is E m n e x : good_parameters E m n -> entry_ok m n (snd e) -> okpt m (points_of (fst e) x) ->
  is_amplitude E m n (snd e) (points_of (fst e) x) (aval E m e x).
Proof.
  intros HG HE Hx. eexists. exists (mfactor m (snd e)). eexists.
  split; [apply (mcurve_ok E m n (snd e) _ HG HE (proj1 Hx) (proj2 Hx))|]. split; [apply (mfactor_ok E m n (snd e) HG HE)|].
  split; [apply norm_is_norm, ge1_pos, HG|]. unfold aval. ring.
Qed.

(** *** combination over dimensions *)
Lemma all_some_map {A} (f : A -> R) l : all_some (map (fun e => Some (f e)) l) = Some (map f l).
Proof. induction l; cbn [map all_some fold_right]; [reflexivity|]. unfold all_some in IHl. rewrite IHl. reflexivity. Qed.
Lemma combine_order_map {A} o (f : A -> R) l : combine_order o (map (fun e => Some (f e)) l) = Some (norm o (map f l)).
Proof. unfold combine_order. now rewrite all_some_map. Qed.
Lemma norm_map_triangle {A} o (f g h : A -> R) l : ge1 o -> (forall e, In e l -> (0 <= h e)%R /\ (h e <= f e + g e)%R) ->
  (norm o (map h l) <= norm o (map f l) + norm o (map g l))%R.
Proof.
  intros Ho H. apply (Rle_trans _ (norm o (map (fun e => f e + g e)%R l))).
  - apply norm_mono; [now apply (ge1_pos o)|]. induction l; cbn [map]; constructor.
    + destruct (H a (or_introl eq_refl)). rewrite !Rabs_right by lra. assumption.
    + apply IHl. intros; apply H; now right.
  - pose proof (minkowski o (map (fun e => (f e, g e)) l) (ge1_valid o Ho)) as M. rewrite !map_map in M. exact M.
Qed.

(** *** trivial diagrams *)
Lemma zero_image_entry im : zero_image im <-> forall i j v, entry im i j = Some v -> v = 0%Qc.
Proof.
  split.
  - intros H i j v Hv. unfold entry in Hv. destruct (Znth im i) as [r|] eqn:Er; [|discriminate]. apply Znth_In in Er, Hv. eauto.
  - intros H r v Hr Hv. apply In_Znth in Hr. destruct Hr as [i [_ Hi]]. apply In_Znth in Hv. destruct Hv as [j [_ Hj]]. apply (H i j). unfold entry. now rewrite Hi.
Qed.
Lemma trivial_off q x : trivial_diagram x -> off_diagonal (points_of q x) = [].
Proof.
  intros H. destruct (off_diagonal (points_of q x)) as [|p l] eqn:E; [reflexivity|]. assert (Hp : In p (off_diagonal (points_of q x))) by (rewrite E; now left).
  apply off_diagonal_In in Hp. destruct Hp as [Hp N]. exfalso. apply N. apply in_map_iff in Hp. destruct Hp as [r [<- Hr]]. apply rows_of_In in Hr. specialize (H r Hr). rewrite H.
  destruct (pd r); reflexivity.
Qed.
Lemma silv_trivial power x s : proper x -> pos_p power -> match power with Pfin a => True | Pinf => False end -> off_diagonal x = [] -> silv power x s = 0%R.
Proof.
  intros H Hp HF E. unfold silv. cbv zeta. destruct (Req_EM_T _ 0) as [|N]; [reflexivity|]. exfalso. apply N. destruct power as [a|]; [|destruct HF].
  rewrite rsum_off; [now rewrite E|]. intros p _ D. cbn [swt]. rewrite (life_diag p D). cbn in Hp. apply rpow_0. lra.
Qed.
Lemma mcurve_trivial E m n g x : comparable E m -> good_parameters E m n -> entry_ok m n g -> okpt m x -> off_diagonal x = [] ->
  forall v, In v (mcurve E m g x) -> v = 0%R.
Proof.
  intros HC HG HE [Hx HS] H0 v. pose proof (mcurve_ok E m n g x HG HE Hx HS) as HM.
  assert (S0 : same_off_diagonal x []) by (unfold same_off_diagonal; rewrite H0; constructor).
  destruct m as [|p|p|p L|p sg|p sg wf|p pw]; cbn [comparable is_curve] in *; try contradiction.
  - intros Hv. apply in_map_iff in Hv. destruct Hv as [s [<- _]]. now rewrite (alive_count_same s x [] S0).
  - intros Hv. apply in_map_iff in Hv. destruct Hv as [w [<- Hw]]. apply in_concat in Hw. destruct Hw as [r [Hr Hw]]. apply In_tabZ in Hr. destruct Hr as [k [Hk <-]].
    apply in_map_iff in Hw. destruct Hw as [t [<- _]]. rewrite (layer_same t x [] k S0). cbn [map]. rewrite layer_beyond by (rewrite zlen_nil; lia). apply qr_0.
  - destruct HM as [H [lo [hi [st [-> [_ [_ [Est [Sh [Z0 P]]]]]]]]]]. intros Hv. apply in_map_iff in Hv. destruct Hv as [w [<- Hw]].
    enough (ZI : zero_image H) by (apply in_concat in Hw; destruct Hw as [r [Hr Hw]]; rewrite (ZI r w Hr Hw); apply qr_0).
    apply zero_image_entry. intros i j w' Hw'. clear w Hw.
    destruct HG as [_ [_ Hn]]. assert (B : 0 <= i < n /\ 0 <= j < n).
    { unfold entry in Hw'. destruct (Znth H i) as [r|] eqn:Er; [|discriminate]. pose proof (Znth_Some_lt _ _ _ Er). pose proof (Znth_Some_lt _ _ _ Hw').
      destruct Sh as [L1 L2]. rewrite (L2 r) in * by (eapply Znth_In; eassumption). lia. }
    destruct HE as [HA _]. destruct (axis_step n (fst g) Hn HA) as [st' [Est' Hst]]. assert (st' = st) by congruence. subst st'. apply Qcle_lt_or_eq in Hst. destruct Hst as [Hst|Hst].
    + destruct (P Hst) as [ra [Sra [Era F]]]. destruct (F i j ltac:(tauto) ltac:(tauto)) as [a [b [Ea [Eb Ec]]]]. cbv zeta in *.
      assert (ZR : zero_image ra).
      { apply zero_image_entry. intros a' b' c Hc. assert (B' : 0 <= a' < n /\ 0 <= b' < n).
        { unfold entry in Hc. destruct (Znth ra a') as [r|] eqn:Er; [|discriminate]. pose proof (Znth_Some_lt _ _ _ Er). pose proof (Znth_Some_lt _ _ _ Hc).
          destruct Sra as [L1 L2]. rewrite (L2 r) in * by (eapply Znth_In; eassumption). lia. }
        rewrite Era in Hc by tauto. rewrite (heat_count_same lo hi st a' b' x [] S0) in Hc. cbn [heat_count] in Hc. injection Hc as <-. apply qz_0. }
      specialize (HC (smin (sg / st) (qz (10 ^ 5 * n)))%Qc ra ZR). apply zero_image_entry in Ea; [|assumption]. apply zero_image_entry in Eb; [|assumption]. subst a b.
      rewrite Ec in Hw'. injection Hw' as <-. unfold Qcdiv. ring.
    + rewrite (Z0 (eq_sym Hst) i j) in Hw' by tauto. congruence.
  - intros Hv. apply in_map_iff in Hv. destruct Hv as [s [<- _]]. apply silv_trivial; try assumption.
    + destruct HG as [_ HG]. destruct pw; [apply HG|exact I].
    + destruct HS as [HS|HS]; [destruct pw; [exact I|exact HS]|]. now rewrite H0 in HS.
Qed.
Lemma vsub_zeros u v : length u = length v -> (forall x, In x v -> x = 0%R) -> vsub u v = u.
Proof.
  revert v. unfold vsub. induction u as [|a u IH]; intros [|b v] H HZ; try discriminate; [reflexivity|]. cbn [combine map fst snd].
  rewrite (HZ b) by (now left). rewrite IH; [f_equal; ring|now injection H|]. intros; apply HZ; now right.
Qed.
Lemma comparable_vectorised E m : comparable E m -> vectorised m.
Proof. destruct m; cbn; auto. Qed.
Lemma dval_trivial E m n e x y : comparable E m -> good_parameters E m n -> entry_ok m n (snd e) ->
  okpt m (points_of (fst e) x) -> okpt m (points_of (fst e) y) -> trivial_diagram y -> dval E m e x y = aval E m e x.
Proof.
  intros HC HG HE Hx Hy HT. pose proof (comparable_vectorised E m HC) as HV. unfold dval, aval, mink. rewrite vsub_zeros; [reflexivity| |].
  - apply length_zlen. rewrite !(mcurve_len E m n) by assumption. reflexivity.
  - apply (mcurve_trivial E m n); try assumption. now apply trivial_off.
Qed.

(** *** diagonal points *)
Lemma half_norm_off p x : pos_p p -> norm p (half_lifetimes x) = norm p (half_lifetimes (off_diagonal x)).
Proof.
  intros Hp. assert (H : Permutation x (off_diagonal x ++ filter (fun q => Qceqb (fst q) (snd q)) x)).
  { clear. induction x as [|a x IH]; [constructor|]. unfold off_diagonal. cbn [filter]. destruct (Qceqb (fst a) (snd a)); cbn [negb].
    - fold (off_diagonal x). rewrite <- Permutation_middle. now constructor.
    - cbn [app]. now constructor. }
  rewrite (norm_perm p _ (half_lifetimes (off_diagonal x) ++ half_lifetimes (filter (fun q => Qceqb (fst q) (snd q)) x))).
  - apply norm_app_zero; [exact Hp|]. intros v Hv. apply in_map_iff in Hv. destruct Hv as [q [<- Hq]]. apply filter_In in Hq. destruct Hq as [_ Hq]. apply Qceqb_eq in Hq.
    rewrite Hq, qr_half. replace (snd q - snd q)%Qc with 0%Qc by ring. rewrite qr_0. lra.
  - unfold half_lifetimes. rewrite <- map_app. now apply Permutation_map.
Qed.
Lemma mcurve_same E m n g x y : vectorised m -> match m with PersImage _ _ _ => False | _ => True end ->
  good_parameters E m n -> entry_ok m n g -> okpt m x -> okpt m y -> same_off_diagonal x y -> mcurve E m g x = mcurve E m g y.
Proof.
  intros HV HP HG HE [Hx Sx] [Hy Sy] H. destruct m as [|p|p|p L|p sg|p sg wf|p pw]; cbn [vectorised] in *; try contradiction; cbn [mcurve].
  - apply map_ext. intros s. f_equal. now apply alive_count_same.
  - do 2 f_equal. apply tabZ_ext. intros k _. apply map_ext. intros s. now apply layer_same.
  - destruct HE as [HA _]. destruct HG as [_ [HK Hn]]. destruct (axis_step n (fst g) Hn HA) as [st [Est Hst]]. rewrite Est.
    destruct HA as [lo [hi [Hlh Hgr]]]. rewrite Est in Hgr.
    destruct (heat_ok (x_gauss1 E) lo hi n (fst (fst g)) st sg x HK Hn Hlh Hgr) as [H1 [-> [I1 _]]].
    destruct (heat_ok (x_gauss1 E) lo hi n (fst (fst g)) st sg y HK Hn Hlh Hgr) as [H2 [-> [I2 _]]].
    do 2 f_equal. eapply is_heat_same; [|exact Hst|exact H|exact I1|exact I2]. lia.
  - apply map_ext. intros s. apply silv_same; try assumption. destruct HG as [_ HG]. destruct pw; [apply HG|exact I].
Qed.
Lemma aval_same E m n e x y : match m with PersImage _ _ _ => False | _ => True end ->
  good_parameters E m n -> entry_ok m n (snd e) -> okpt m (points_of (fst e) x) -> okpt m (points_of (fst e) y) ->
  same_off_diagonal (points_of (fst e) x) (points_of (fst e) y) -> aval E m e x = aval E m e y.
Proof.
  intros HP HG HE Hx Hy H. unfold aval. f_equal.
  assert (HH : forall p, pos_p p -> norm p (half_lifetimes (points_of (fst e) x)) = norm p (half_lifetimes (points_of (fst e) y))).
  { intros p Hp. rewrite half_norm_off, (half_norm_off p (points_of (fst e) y)) by assumption. apply norm_perm. now apply Permutation_map. }
  pose proof (ge1_pos _ (proj1 HG)) as Hp.
  assert (D : vectorised m \/ ~ vectorised m) by (destruct m; cbn; tauto). destruct D as [D|D].
  - f_equal. eapply (mcurve_same E m n); eassumption.
  - destruct m; cbn [vectorised] in D; try tauto; cbn [mcurve]; now apply HH.
Qed.

(** *** matchings with a trivial diagram *)
Lemma cheb_diag p t : (life p / 2 <= cheb (real_pt p) (t, t))%R.
Proof.
  unfold cheb, real_pt, life. cbn [fst snd]. rewrite qr_sub. set (b := qr (fst p)). set (d := qr (snd p)).
  pose proof (Rmax_l (Rabs (b - t)) (Rabs (d - t))) as M1. pose proof (Rmax_r (Rabs (b - t)) (Rabs (d - t))) as M2.
  pose proof (Rle_abs (d - t)) as A. pose proof (Rle_abs (- (b - t))) as B. rewrite Rabs_Ropp in B. lra.
Qed.
Lemma to_diagonal_half p : (fst p <= snd p)%Qc -> to_diagonal p (life p / 2).
Proof.
  intros H. split; [|intros t; apply cheb_diag]. exists ((qr (fst p) + qr (snd p)) / 2)%R. unfold cheb, real_pt, life. cbn [fst snd].
  rewrite qr_sub. apply qr_le in H. rewrite Rabs_left1 by lra. rewrite Rabs_right by lra. rewrite Rmax_left by lra. lra.
Qed.
Lemma to_diagonal_unique p r r' : to_diagonal p r -> to_diagonal p r' -> r = r'.
Proof. intros [[t ->] H1] [[t' ->] H2]. apply Rle_antisym; auto. Qed.
Lemma matching_nil x M : is_matching x [] M -> exists l, M = map LeftOnly l /\ Permutation l x.
Proof.
  intros [HL HR]. apply Permutation_sym, Permutation_nil in HR.
  assert (E : exists l, M = map LeftOnly l).
  { clear HL. induction M as [|e M IH]; [exists []; reflexivity|]. unfold rights in HR. cbn [flat_map] in HR. apply app_eq_nil in HR. destruct HR as [H1 H2].
    destruct (IH H2) as [l ->]. destruct e as [p q|p|q]; try discriminate. exists (p :: l). reflexivity. }
  destruct E as [l ->]. exists l. split; [reflexivity|]. assert (El : lefts (map LeftOnly l) = l) by (clear; induction l; cbn; [reflexivity|]; unfold lefts in IHl; now rewrite IHl).
  now rewrite El in HL.
Qed.
Lemma matching_distance_nil p x r : pos_p p -> proper x -> is_matching_distance p x [] r <-> r = norm p (half_lifetimes x).
Proof.
  intros Hp Hx.
  assert (HC : forall l, Permutation l x -> forall r, matching_cost p (map LeftOnly l) r <-> r = norm p (half_lifetimes x)).
  { intros l Pl r'. assert (Hl : proper l) by (intros q Hq; apply Hx; now apply (Permutation_in _ Pl)).
    assert (F : Forall2 edge_cost (map LeftOnly l) (half_lifetimes l)).
    { clear Pl. induction l as [|a l IH]; cbn [map]; constructor; [|apply IH; intros q Hq; apply Hl; now right].
      cbn [edge_cost half_lifetimes]. rewrite qr_half. apply to_diagonal_half. apply Hl. now left. }
    assert (EN : norm p (half_lifetimes x) = norm p (half_lifetimes l)) by (apply norm_perm; apply Permutation_map; now symmetry).
    split.
    - intros [cs [Fc Hn]]. assert (cs = half_lifetimes l); [|subst cs; rewrite EN; now apply is_norm_unique].
      clear - F Fc. revert cs Fc F. generalize (half_lifetimes l). induction l as [|a l IH]; intros hs cs Fc F; inversion Fc; inversion F; subst; [reflexivity|].
      f_equal; [|eapply IH; eassumption]. eapply to_diagonal_unique; eassumption.
    - intros ->. exists (half_lifetimes l). split; [assumption|]. rewrite EN. now apply norm_is_norm. }
  split.
  - intros [[M [HM Hc]] _]. destruct (matching_nil x M HM) as [l [-> Pl]]. now apply (HC l Pl).
  - intros ->. split.
    + exists (map LeftOnly x). split; [|now apply (HC x)]. split.
      * assert (El : lefts (map LeftOnly x) = x) by (clear; induction x; cbn; [reflexivity|]; unfold lefts in IHx; now rewrite IHx). rewrite El. apply Permutation_refl.
      * assert (El : rights (map LeftOnly x) = []) by (clear; induction x; cbn; [reflexivity|]; exact IHx). rewrite El. constructor.
    + intros M r' HM Hc. destruct (matching_nil x M HM) as [l [-> Pl]]. apply (HC l Pl) in Hc. rewrite Hc. apply Rle_refl.
Qed.

Definition pval (E : externals) (m : metric) (q : fl) (y x : diagram) : R :=
  let f := match m with Bottleneck => x_bottleneck E | Wasserstein p => x_wasserstein E p | _ => fun _ _ => 0%R end in
  f (off_diagonal (points_of q y)) (off_diagonal (points_of q x)).
Lemma pairwise_points_ok E m n X : ~ vectorised m -> 1 <= n -> trainable X ->
  exists g, fit_metric m n X = Ok (map fst g, g) /\ g <> [] /\ metric_grids m n X g /\ (forall q, In q (map fst g) <-> In q (map pq (hd [] X))) /\
    forall n_jobs Y, 1 <= n_jobs -> transformable (map pq (hd [] X)) Y ->
    pairwise_distance E m n n_jobs X Y = Ok (map (fun y => map (fun x => map (fun e => Some (pval E m (fst e) y x)) g) X) Y).
Proof.
  intros HV Hn HT. destruct (fit_metric_ok m n X Hn HT) as [g [E1 [Hg [HM [[HI HK] [HN HE]]]]]]. exists g. repeat (split; [assumption|]).
  intros n_jobs Y HJ HY. unfold pairwise_distance. rewrite E1. cbn [bind fst snd].
  assert (HT' : transformable (map fst g) X) by (eapply transformable_ext; [|apply (trainable_transformable X HT)]; intros q; now rewrite HK).
  assert (HY' : transformable (map fst g) Y) by (eapply transformable_ext; [|exact HY]; intros q; now rewrite HK).
  apply (pairwise_loop E m n_jobs g X Y (fun e y x => Some (pval E m (fst e) y x))); try assumption. intros q e xs He I. cbn [fst].
  unfold pval. destruct m; cbn [vectorised] in HV; try tauto; cbn [distances]; unfold point_distances; rewrite map_map; f_equal; apply map_ext; intros y; rewrite map_map; reflexivity.
Qed.
