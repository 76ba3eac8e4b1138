(** Distances and amplitudes are norms of (differences of) curves. *)
From Coq Require Import Reals Lra Permutation.
From Verif Require Import Np NpFacts Fl FlFacts DiagTypes DiagModel DiagSpec DiagProofs DiagProofs2
  VecModel VecSpec SliceFacts VecProofs VecProofs2 VecProofs3 VecProofs4 RNp RNormFacts MetricModel MetricSpec MetricProofs MetricProofs2.
Open Scope Z_scope.

Definition mcurve (E : externals) (m : metric) (g : grid) (x : list (Qc * Qc)) : list R :=
  match m with
  | Bottleneck | Wasserstein _ => half_lifetimes x
  | Betti _ => map (fun s => IZR (alive_count s x)) (fst (fst g))
  | Landscape _ L => map qr (concat (tabZ L (fun k => map (fun s => layer (map (tent s) x) k) (fst (fst g)))))
  | Heat _ sigma => match snd (fst g) with
      | Fin st => match heat (x_gauss1 E) (fst (fst g)) st sigma x with Ok H => map qr (concat H) | Err _ => [] end
      | _ => [] end
  | PersImage _ sigma wf => match snd (fst g), snd (snd g) with
      | Fin s0, Fin s1 => match persistence_image (x_gauss2 E) (combine (fst (fst g)) (fst (snd g))) (s0, s1) sigma (wf (fst (snd g))) x with
                          | Ok H => map qr (concat H) | Err _ => [] end
      | _, _ => [] end
  | Silhouette _ power => map (silv power x) (fst (fst g))
  end.
Definition mfactor (m : metric) (g : grid) : R :=
  let o := match m with
    | Bottleneck | Wasserstein _ => Some 1%R
    | Heat p _ => step_factor (snd (fst g)) 2 p
    | PersImage p _ _ => step_factor2 (snd (fst g)) (snd (snd g)) p
    | Betti p | Landscape p _ | Silhouette p _ => step_factor (snd (fst g)) 1 p
    end in
  match o with Some c => c | None => 0%R end.

Definition axis_ok (n : Z) (a : list Qc * fl) : Prop :=
  exists lo hi, (lo <= hi)%Qc /\ is_grid lo hi n (fst a) (snd a).
Definition entry_ok (m : metric) (n : Z) (g : grid) : Prop :=
  axis_ok n (fst g) /\ (uses_lifetimes m = true -> axis_ok n (snd g)).

Lemma axis_step n a : 2 <= n -> axis_ok n a -> exists st, snd a = Fin st /\ (0 <= st)%Qc.
Proof.
  intros Hn [lo [hi [Hlh G]]]. destruct G as [_ [_ [_ G]]]. destruct (G ltac:(lia)) as [E _]. eexists. split; [exact E|].
  now apply (step_sign lo hi n _ Hn Hlh).
Qed.
Lemma qr_nonneg a : (0 <= a)%Qc -> (0 <= qr a)%R.
Proof. intros H. rewrite <- qr_0. now apply qr_le. Qed.

Lemma factor_one p n a : 1 <= n -> (n = 1 -> p = Pinf) -> ge1 p -> axis_ok n a ->
  exists c, step_factor (snd a) 1 p = Some c /\ (0 <= c)%R /\
    match p with Pinf => c = 1%R | Pfin p => exists s, snd a = Fin s /\ c = spow (qr s) (1 / p) end.
Proof.
  intros Hn H1 Hp HA. destruct p as [p|]; [|exists 1%R; repeat split; cbn; lra].
  assert (Hn2 : 2 <= n) by (destruct (Z.eq_dec n 1) as [E|]; [specialize (H1 E); discriminate|lia]).
  destruct (axis_step n a Hn2 HA) as [st [E Hst]]. cbn in Hp. exists (rpow (qr st) (1 / p)). rewrite E. split; [reflexivity|]. split.
  - apply rpow_nonneg. now apply qr_nonneg.
  - exists st. split; [reflexivity|]. symmetry. apply spow_rpow. unfold Rdiv. rewrite Rmult_1_l. apply Rinv_neq_0_compat. lra.
Qed.
Lemma factor_heat p n a : 2 <= n -> ge1 p -> axis_ok n a ->
  exists c, step_factor (snd a) 2 p = Some c /\ (0 <= c)%R /\
    match p with Pinf => c = 1%R | Pfin p => exists s, snd a = Fin s /\ c = spow (qr (s * s)%Qc) (1 / p) end.
Proof.
  intros Hn Hp HA. destruct p as [p|]; [|exists 1%R; repeat split; cbn; lra].
  destruct (axis_step n a Hn HA) as [st [E Hst]]. cbn in Hp. exists (rpow (qr st) (2 / p)). rewrite E. split; [reflexivity|].
  pose proof (qr_nonneg st Hst) as H0. assert (NZ : (1 / p <> 0)%R) by (unfold Rdiv; rewrite Rmult_1_l; apply Rinv_neq_0_compat; lra). split.
  - now apply rpow_nonneg.
  - exists st. split; [reflexivity|]. rewrite spow_rpow by assumption. rewrite qr_mul, rpow_prod by assumption.
    destruct (Req_dec (qr st) 0) as [Z|Z].
    + rewrite Z, !rpow_0; [ring|assumption|]. unfold Rdiv in *. intros F. apply Rmult_integral in F. destruct F as [F|F]; [lra|]. apply NZ. rewrite F. ring.
    + rewrite !rpow_pos by lra. unfold Rpower. rewrite <- exp_plus. f_equal. field. lra.
Qed.
Lemma factor_pi p n g : 2 <= n -> ge1 p -> axis_ok n (fst g) -> axis_ok n (snd g) ->
  exists c, step_factor2 (snd (fst g)) (snd (snd g)) p = Some c /\ (0 <= c)%R /\
    match p with Pinf => c = 1%R | Pfin p => exists s0 s1, snd (fst g) = Fin s0 /\ snd (snd g) = Fin s1 /\ c = spow (qr (s0 * s1)%Qc) (1 / p) end.
Proof.
  intros Hn Hp HA HB. destruct p as [p|]; [|exists 1%R; repeat split; cbn; lra].
  destruct (axis_step n _ Hn HA) as [s0 [E0 Hs0]]. destruct (axis_step n _ Hn HB) as [s1 [E1 Hs1]]. cbn in Hp.
  exists (rpow (qr (s0 * s1)%Qc) (1 / p)). rewrite E0, E1. split; [reflexivity|]. split.
  - apply rpow_nonneg, qr_nonneg. qnra.
  - exists s0, s1. split; [reflexivity|]. split; [reflexivity|]. symmetry. apply spow_rpow. unfold Rdiv. rewrite Rmult_1_l. apply Rinv_neq_0_compat. lra.
Qed.

Lemma mfactor_ok E m n g : good_parameters E m n -> entry_ok m n g -> is_factor m g (mfactor m g) /\ (0 <= mfactor m g)%R.
Proof.
  intros [Hp HG] [HA HB]. unfold is_factor, mfactor. destruct m as [|p|p|p L|p sg|p sg wf|p pw]; cbn [exponent uses_lifetimes] in *.
  - split; [reflexivity|lra].
  - split; [reflexivity|lra].
  - destruct (factor_one p n (fst g) ltac:(tauto) ltac:(tauto) Hp HA) as [c [-> [H0 H]]]. split; [|assumption]. destruct p; assumption.
  - destruct (factor_one p n (fst g) ltac:(tauto) ltac:(tauto) Hp HA) as [c [-> [H0 H]]]. split; [|assumption]. destruct p; assumption.
  - destruct (factor_heat p n (fst g) ltac:(tauto) Hp HA) as [c [-> [H0 H]]]. split; [|assumption]. destruct p; assumption.
  - destruct (factor_pi p n g ltac:(tauto) Hp HA (HB eq_refl)) as [c [-> [H0 H]]]. split; [|assumption]. destruct p; assumption.
  - destruct (factor_one p n (fst g) ltac:(tauto) ltac:(tauto) Hp HA) as [c [-> [H0 H]]]. split; [|assumption]. destruct p; assumption.
Qed.

(** *** curves meet their specification *)
Definition sil_ok (m : metric) (x : list (Qc * Qc)) : Prop :=
  match m with Silhouette _ power => sil_defined power x | _ => True end.

Lemma Forall2_map_self {A B} (P : A -> B -> Prop) (f : A -> B) l : (forall x, In x l -> P x (f x)) -> Forall2 P l (map f l).
Proof. induction l; cbn [map]; constructor; [apply H; now left|]. apply IHl. intros; apply H; now right. Qed.
Lemma zlen_axis n a : axis_ok n a -> zlen (fst a) = n.
Proof. intros [lo [hi [_ [H _]]]]. exact H. Qed.

Lemma mcurve_ok E m n g x : good_parameters E m n -> entry_ok m n g -> proper x -> sil_ok m x -> is_curve E m n g x (mcurve E m g x).
Proof.
  intros [Hp HG] [HA HB] Hx HS. destruct m as [|p|p|p L|p sg|p sg wf|p pw]; cbn [is_curve mcurve exponent uses_lifetimes sil_ok] in *.
  - unfold half_lifetimes. apply map_ext. intros q. apply qr_half.
  - unfold half_lifetimes. apply map_ext. intros q. apply qr_half.
  - reflexivity.
  - exists (tabZ L (fun k => map qr (map (fun s => layer (map (tent s) x) k) (fst (fst g))))). split; [split|split].
    + apply zlen_tabZ. lia.
    + intros r Hr. apply In_tabZ in Hr. destruct Hr as [k [_ <-]]. rewrite !zlen_map. now apply zlen_axis.
    + rewrite concat_map, tabZ_map. reflexivity.
    + intros k i t Hk Ht. exists (layer (map (tent t) x) k). split; [|apply layer_kth; lia]. unfold entry. rewrite Znth_tabZ by lia.
      rewrite !Znth_map, Ht. reflexivity.
  - destruct HA as [lo [hi [Hlh Hgr]]]. pose proof (axis_step n (fst g) ltac:(tauto) (ex_intro _ lo (ex_intro _ hi (conj Hlh Hgr)))) as [st [Est _]]. rewrite Est in *.
    destruct (heat_ok (x_gauss1 E) lo hi n (fst (fst g)) st sg x ltac:(tauto) ltac:(tauto) Hlh Hgr) as [H [EH [IH _]]]. rewrite EH.
    exists H, lo, hi, st. destruct Hgr as [_ [Z0 [_ Hgr]]]. destruct (Hgr ltac:(lia)) as [_ [Z1 _]]. auto.
  - specialize (HB eq_refl).
    destruct HA as [lo0 [hi0 [Hlh0 Hgr0]]]. pose proof (axis_step n (fst g) ltac:(tauto) (ex_intro _ lo0 (ex_intro _ hi0 (conj Hlh0 Hgr0)))) as [st0 [Est0 _]]. rewrite Est0 in *.
    destruct HB as [lo1 [hi1 [Hlh1 Hgr1]]]. pose proof (axis_step n (snd g) ltac:(tauto) (ex_intro _ lo1 (ex_intro _ hi1 (conj Hlh1 Hgr1)))) as [st1 [Est1 _]]. rewrite Est1 in *.
    destruct (persistence_image_ok (x_gauss2 E) lo0 hi0 lo1 hi1 n (fst (fst g)) (fst (snd g)) st0 st1 sg (wf (fst (snd g))) x) as [H [EH IH]]; try tauto.
    { destruct HG as [_ [HW _]]. rewrite HW. apply Hgr1. }
    rewrite EH. exists H, lo0, hi0, lo1, hi1, st0, st1.
    destruct Hgr0 as [_ [Z0 [_ Hgr0]]]. destruct (Hgr0 ltac:(lia)) as [_ [Z1 _]]. destruct Hgr1 as [_ [Y0 [_ Hgr1]]]. destruct (Hgr1 ltac:(lia)) as [_ [Y1 _]]. auto 10.
  - apply Forall2_map_self. intros s _. apply silv_is; [assumption|]. destruct pw; [|exact I]. apply HG.
Qed.

(** All curves of a grid have the same length, positive for the vectorised
    metrics. *)
Lemma zlen_concat_shape {A} n k (M : list (list A)) : has_shape n k M -> zlen (concat M) = n * k.
Proof. intros [L H]. rewrite (zlen_concat_uniform M k H). now rewrite L. Qed.
Definition curve_len (m : metric) (n : Z) : Z :=
  match m with Landscape _ L => L * n | Heat _ _ | PersImage _ _ _ => n * n | _ => n end.
Lemma is_curve_len E m n g x u : vectorised m -> entry_ok m n g -> is_curve E m n g x u -> zlen u = curve_len m n.
Proof.
  intros HV [HA _]. apply zlen_axis in HA. destruct m as [|p|p|p L|p sg|p sg wf|p pw]; cbn [is_curve curve_len vectorised] in *; try contradiction.
  - intros ->. now rewrite zlen_map.
  - intros [ly [S [-> _]]]. now apply zlen_concat_shape.
  - intros [H [lo [hi [st [-> [_ [_ [_ [S _]]]]]]]]]. rewrite zlen_map. now apply zlen_concat_shape.
  - intros [H [? [? [? [? [? [? [-> [_ [_ [_ [_ [_ [_ [S _]]]]]]]]]]]]]]]. rewrite zlen_map. now apply zlen_concat_shape.
  - intros F. apply Forall2_zlen in F. lia.
Qed.
Lemma curve_len_pos E m n : vectorised m -> good_parameters E m n -> 0 < curve_len m n.
Proof. intros HV [_ HG]. destruct m; cbn [curve_len vectorised] in *; try contradiction; try lia; nia. Qed.
Lemma length_zlen {A B} (l : list A) (r : list B) : zlen l = zlen r -> length l = length r.
Proof. unfold zlen. lia. Qed.

(** *** landscapes with fewer layers *)
Lemma tabZ_split {A} a b (f : Z -> A) : 0 <= a <= b -> tabZ b f = tabZ a f ++ tabZ (b - a) (fun k => f (a + k)).
Proof.
  intros H. apply Znth_ext; [rewrite zlen_app, !zlen_tabZ; lia|]. intros i Hi. rewrite zlen_tabZ in Hi by lia. rewrite Znth_tabZ by lia.
  destruct (Z.lt_ge_cases i a) as [L|L].
  - rewrite Znth_app1 by (rewrite zlen_tabZ; lia). now rewrite Znth_tabZ by lia.
  - rewrite Znth_app2 by (rewrite zlen_tabZ; lia). rewrite zlen_tabZ by lia. rewrite Znth_tabZ by lia. do 2 f_equal. lia.
Qed.
Lemma layer_beyond l k : zlen l <= k -> layer l k = 0%Qc.
Proof. intros H. unfold layer. rewrite Znth_None; [reflexivity|]. right. unfold zlen in *. rewrite (Permutation_length (sort_desc_perm l)). assumption. Qed.
Definition lcurve (s : list Qc) L x : list R := map qr (concat (tabZ L (fun k => map (fun t => layer (map (tent t) x) k) s))).
Lemma lcurve_split s K L x : 0 <= K <= L -> zlen x <= K -> exists z, lcurve s L x = lcurve s K x ++ z /\ (forall v, In v z -> v = 0%R) /\ zlen z = (L - K) * zlen s.
Proof.
  intros H Hx. unfold lcurve. rewrite (tabZ_split K L) by assumption. rewrite concat_app, map_app. eexists. split; [reflexivity|]. split.
  - intros v Hv. apply in_map_iff in Hv. destruct Hv as [w [<- Hw]]. apply in_concat in Hw. destruct Hw as [r [Hr Hw]].
    apply In_tabZ in Hr. destruct Hr as [k [Hk <-]]. apply in_map_iff in Hw. destruct Hw as [t [<- _]]. rewrite layer_beyond; [apply qr_0|]. rewrite zlen_map. lia.
  - rewrite zlen_map. rewrite (zlen_concat_uniform _ (zlen s)); [rewrite zlen_tabZ; lia|]. intros r Hr. apply In_tabZ in Hr. destruct Hr as [k [_ <-]]. apply zlen_map.
Qed.
Lemma zlen_lcurve s L x : 0 <= L -> zlen (lcurve s L x) = L * zlen s.
Proof.
  intros H. unfold lcurve. rewrite zlen_map. rewrite (zlen_concat_uniform _ (zlen s)); [rewrite zlen_tabZ; lia|]. intros r Hr. apply In_tabZ in Hr. destruct Hr as [k [_ <-]]. apply zlen_map.
Qed.
Lemma vsub_app u u' v v' : length u = length v -> vsub (u ++ u') (v ++ v') = vsub u v ++ vsub u' v'.
Proof. revert v. unfold vsub. induction u as [|a u IH]; intros [|b v] H; try discriminate; [reflexivity|]. cbn [app combine map]. f_equal. apply IH. now injection H. Qed.
Lemma vsub_zero u v : (forall x, In x u -> x = 0%R) -> (forall x, In x v -> x = 0%R) -> forall x, In x (vsub u v) -> x = 0%R.
Proof.
  intros Hu Hv x Hx. apply in_map_iff in Hx. destruct Hx as [[a b] [<- H]]. cbn [fst snd]. pose proof (in_combine_l _ _ _ _ H). pose proof (in_combine_r _ _ _ _ H).
  rewrite (Hu a), (Hv b) by assumption. ring.
Qed.
Lemma lcurve_mink p s K L x y : pos_p p -> 0 <= K <= L -> (K < L -> zlen x <= K /\ zlen y <= K) ->
  mink p (lcurve s K x) (lcurve s K y) = mink p (lcurve s L x) (lcurve s L y).
Proof.
  intros Hp H HL. destruct (Z.eq_dec K L) as [->|N]; [reflexivity|]. destruct HL as [Hx Hy]; [lia|].
  destruct (lcurve_split s K L x H Hx) as [z [-> [Hz _]]]. destruct (lcurve_split s K L y H Hy) as [z' [-> [Hz' _]]].
  unfold mink. rewrite vsub_app by (apply length_zlen; rewrite !zlen_lcurve; lia). symmetry. apply norm_app_zero; [exact Hp|]. now apply vsub_zero.
Qed.

Lemma landscapes_flat part d s K : is_partition part -> 0 <= K -> (K = 0 -> forall x, In x d -> x = []) -> (exists n, forall x, In x d -> zlen x = n) ->
  map flat (landscapes part d s K) = map (fun x => Some (lcurve s K x)) d.
Proof.
  intros HP HK H0 HU. destruct (Z.eq_dec K 0) as [->|N].
  - specialize (H0 eq_refl). unfold landscapes. destruct d as [|x0 d]; [reflexivity|]. set (d' := x0 :: d) in *.
    assert (En : n_points_of d' = 0) by (unfold d'; cbn [n_points_of]; rewrite (H0 x0) by (now left); reflexivity). rewrite En.
    change (Z.min 0 0) with 0. change (repeat _ (Z.to_nat (Z.max 0 (0 - 0)))) with (@nil (list Qc)). cbv zeta. rewrite map_map.
    rewrite tabZ_map. apply Znth_ext; [rewrite zlen_tabZ, zlen_map by apply zlen_nonneg; reflexivity|]. intros i Hi. rewrite zlen_tabZ in Hi by apply zlen_nonneg.
    rewrite Znth_tabZ by assumption. rewrite Znth_map. destruct (Znth_ex d' i Hi) as [x Ex]. rewrite Ex. reflexivity.
  - rewrite landscapes_ok by (try assumption; lia). rewrite map_map. reflexivity.
Qed.

(** *** distances *)
Definition uniform (d : list (list (Qc * Qc))) : Prop := exists n, forall x, In x d -> zlen x = n.
Lemma n_points_uniform d x : uniform d -> In x d -> zlen x = n_points_of d.
Proof. intros [n H] Hx. destruct d as [|x0 d]; [destruct Hx|]. cbn [n_points_of]. rewrite (H x Hx). symmetry. apply H. now left. Qed.

Lemma map_flat_res (F : list (Qc * Qc) -> res image) d : (forall x, In x d -> exists H, F x = Ok H) ->
  exists r, mapM F d = Ok r /\ map flat r = map (fun x => Some (match F x with Ok H => map qr (concat H) | Err _ => [] end)) d.
Proof.
  intros H. exists (map (fun x => match F x with Ok H => H | Err _ => [] end) d). split.
  - apply mapM_Ok. intros x Hx. destruct (H x Hx) as [I ->]. reflexivity.
  - rewrite map_map. apply map_ext_in. intros x Hx. destruct (H x Hx) as [I ->]. reflexivity.
Qed.

Lemma dist_cases {A} p (C : list (Qc * Qc) -> list R) c d1 d2 (k : list (list (option R)) -> A) : pos_p p ->
  (if array_equal d1 d2 then k (squareform_pdist p (Some c) (map (fun x => Some (C x)) d1))
   else k (cdist p (Some c) (map (fun x => Some (C x)) d1) (map (fun x => Some (C x)) d2))) =
  k (map (fun x => map (fun y => Some (mink p (C x) (C y) * c)%R) d2) d1).
Proof.
  intros Hp. destruct (array_equal d1 d2) eqn:EA; f_equal; [|apply cdist_ok]. apply array_equal_eq in EA. subst d2. now apply squareform_ok.
Qed.

Lemma distances_ok E m n g d1 d2 : vectorised m -> good_parameters E m n -> entry_ok m n g -> uniform d1 -> uniform d2 ->
  (forall x, In x d1 -> proper x /\ sil_ok m x) -> (forall x, In x d2 -> proper x /\ sil_ok m x) ->
  distances E m g d1 d2 =
  Ok (map (fun x => map (fun y => Some (mink (exponent m) (mcurve E m g x) (mcurve E m g y) * mfactor m g)%R) d2) d1).
Proof.
  intros HV HGP HE U1 U2 H1 H2. pose proof HGP as [Hp HG]. pose proof HE as [HA HB]. pose proof (ge1_pos _ Hp) as Hpp.
  destruct m as [|p|p|p L|p sg|p sg wf|p pw]; cbn [vectorised exponent uses_lifetimes] in *; try contradiction; cbn [distances].
  - unfold betti_distances, mfactor. destruct (factor_one p n (fst g) ltac:(tauto) ltac:(tauto) Hp HA) as [c [-> _]].
    unfold betti_vec. rewrite !betti_curves_ok, !map_map. cbv zeta.
    etransitivity; [apply (dist_cases p (fun x => map IZR (map (fun s => alive_count s x) (fst (fst g)))) c d1 d2 Ok Hpp)|].
    f_equal. apply map_ext. intros x. apply map_ext. intros y. cbn [mcurve]. now rewrite !map_map.
  - unfold landscape_distances, mfactor. destruct (factor_one p n (fst g) ltac:(tauto) ltac:(tauto) Hp HA) as [c [-> _]].
    destruct HG as [HL [HP _]]. cbv zeta. set (s := fst (fst g)).
    assert (N1 : 0 <= n_points_of d1) by (destruct d1; cbn; [lia|apply zlen_nonneg]).
    assert (N2 : 0 <= n_points_of d2) by (destruct d2; cbn; [lia|apply zlen_nonneg]).
    assert (Z0 : forall x : list (Qc * Qc), zlen x = 0 -> x = []) by (intros [|a x] Ex; [reflexivity|rewrite zlen_cons in Ex; pose proof (zlen_nonneg x); lia]).
    destruct (array_equal d1 d2) eqn:EA.
    + apply array_equal_eq in EA. subst d2. set (K := Z.min L (n_points_of d1)).
      rewrite landscapes_flat; [|assumption|lia| |assumption]. 2:{ intros EK x Hx. apply Z0. rewrite (n_points_uniform d1 x U1 Hx). lia. }
      rewrite squareform_ok by assumption. f_equal. apply map_ext_in. intros x Hx. apply map_ext_in. intros y Hy. cbn [mcurve]. do 2 f_equal.
      apply lcurve_mink; [assumption|lia|]. intros HK. rewrite (n_points_uniform d1 x U1 Hx), (n_points_uniform d1 y U1 Hy). lia.
    + set (K := Z.max (Z.min L (n_points_of d1)) (Z.min L (n_points_of d2))).
      rewrite landscapes_flat; [|assumption|lia| |assumption]. 2:{ intros EK x Hx. apply Z0. rewrite (n_points_uniform d1 x U1 Hx). lia. }
      rewrite landscapes_flat; [|assumption|lia| |assumption]. 2:{ intros EK x Hx. apply Z0. rewrite (n_points_uniform d2 x U2 Hx). lia. }
      rewrite cdist_ok. f_equal. apply map_ext_in. intros x Hx. apply map_ext_in. intros y Hy. cbn [mcurve]. do 2 f_equal.
      apply lcurve_mink; [assumption|lia|]. intros HK. rewrite (n_points_uniform d1 x U1 Hx), (n_points_uniform d2 y U2 Hy). lia.
  - unfold heat_distances, mfactor. destruct (factor_heat p n (fst g) ltac:(tauto) Hp HA) as [c [Ec _]]. rewrite Ec.
    destruct (axis_step n (fst g) ltac:(tauto) HA) as [st [Est _]].
    destruct HA as [lo [hi [Hlh Hgr]]]. rewrite Est in Ec, Hgr |- *. cbv iota. unfold heats.
    assert (T : forall d : list (list (Qc * Qc)), forall x, In x d -> exists H, heat (x_gauss1 E) (fst (fst g)) st sg x = Ok H).
    { intros d x _. destruct (heat_ok (x_gauss1 E) lo hi n (fst (fst g)) st sg x ltac:(tauto) ltac:(tauto) Hlh Hgr) as [H [EH _]]. eauto. }
    destruct (map_flat_res _ d1 (T d1)) as [r1 [-> F1]]. destruct (map_flat_res _ d2 (T d2)) as [r2 [-> F2]]. cbn [bind]. rewrite F1, F2, ?Ec.
    etransitivity; [apply (dist_cases p (fun x => match heat (x_gauss1 E) (fst (fst g)) st sg x with Ok H => map qr (concat H) | Err _ => [] end) c d1 d2 Ok Hpp)|].
    f_equal. apply map_ext. intros x. apply map_ext. intros y. cbn [mcurve]. rewrite Est. reflexivity.
  - specialize (HB eq_refl). unfold persistence_image_distances, mfactor. destruct (factor_pi p n g ltac:(tauto) Hp HA HB) as [c [Ec _]]. rewrite Ec.
    destruct (axis_step n (fst g) ltac:(tauto) HA) as [st0 [Est0 _]]. destruct (axis_step n (snd g) ltac:(tauto) HB) as [st1 [Est1 _]].
    destruct HA as [lo0 [hi0 [Hlh0 Hgr0]]]. destruct HB as [lo1 [hi1 [Hlh1 Hgr1]]]. rewrite Est0, Est1 in Ec. rewrite Est0 in Hgr0 |- *. rewrite Est1 in Hgr1 |- *. cbv iota. unfold persistence_images.
    assert (T : forall d : list (list (Qc * Qc)), forall x, In x d -> exists H, persistence_image (x_gauss2 E) (combine (fst (fst g)) (fst (snd g))) (st0, st1) sg (wf (fst (snd g))) x = Ok H).
    { intros d x _. destruct (persistence_image_ok (x_gauss2 E) lo0 hi0 lo1 hi1 n (fst (fst g)) (fst (snd g)) st0 st1 sg (wf (fst (snd g))) x) as [H [EH IH]]; try tauto; [|eauto].
      destruct HG as [_ [HW _]]. rewrite HW. apply Hgr1. }
    destruct (map_flat_res _ d1 (T d1)) as [r1 [-> F1]]. destruct (map_flat_res _ d2 (T d2)) as [r2 [-> F2]]. cbn [bind]. rewrite F1, F2, ?Ec.
    etransitivity; [apply (dist_cases p (fun x => match persistence_image (x_gauss2 E) (combine (fst (fst g)) (fst (snd g))) (st0, st1) sg (wf (fst (snd g))) x with Ok H => map qr (concat H) | Err _ => [] end) c d1 d2 Ok Hpp)|].
    f_equal. apply map_ext. intros x. apply map_ext. intros y. cbn [mcurve]. rewrite Est0, Est1. reflexivity.
  - unfold silhouette_distances, mfactor. destruct (factor_one p n (fst g) ltac:(tauto) ltac:(tauto) Hp HA) as [c [-> _]].
    assert (T : forall d : list (list (Qc * Qc)), (forall x, In x d -> proper x /\ sil_defined pw x) -> silhouettes d (fst (fst g)) pw = Ok (map (fun x => Some (map (silv pw x) (fst (fst g)))) d)).
    { intros d H. apply mapM_Ok. intros x Hx. apply silhouette_ok; [apply H; assumption| |apply H; assumption]. destruct pw; [|exact I]. apply HG. }
    rewrite (T d1 H1), (T d2 H2). cbn [bind]. cbv zeta.
    apply (dist_cases p (fun x => map (silv pw x) (fst (fst g))) c d1 d2 Ok Hpp).
Qed.

Lemma mapM_flat_curve {A} (F : A -> res (option R)) (h : A -> R) d : (forall x, In x d -> F x = Ok (Some (h x))) -> mapM F d = Ok (map (fun x => Some (h x)) d).
Proof. intros H. now apply mapM_Ok. Qed.

Lemma amplitudes_ok E m n g d : good_parameters E m n -> entry_ok m n g -> uniform d ->
  (m = Bottleneck -> forall x, In x d -> x <> []) ->
  (forall x, In x d -> proper x /\ sil_ok m x) ->
  amplitudes E m g d = Ok (map (fun x => Some (norm (exponent m) (mcurve E m g x) * mfactor m g)%R) d).
Proof.
  intros HGP HE U HBn H1. pose proof HGP as [Hp HG]. pose proof HE as [HA HB]. pose proof (ge1_pos _ Hp) as Hpp.
  assert (NE : vectorised m -> forall x, In x d -> exponent m = Pinf -> mcurve E m g x <> []).
  { intros HV x Hx _ F. pose proof (is_curve_len E m n g x _ HV HE (mcurve_ok E m n g x HGP HE (proj1 (H1 x Hx)) (proj2 (H1 x Hx)))) as L.
    pose proof (curve_len_pos E m n HV HGP). rewrite F, zlen_nil in L. lia. }
  destruct m as [|p|p|p L|p sg|p sg wf|p pw]; cbn [vectorised exponent uses_lifetimes] in *; cbn [amplitudes].
  - apply norms_ok. intros x Hx _. specialize (HBn eq_refl x Hx). unfold half_lifetimes. destruct x; [easy|discriminate].
  - apply norms_ok. intros x Hx F. discriminate.
  - unfold mfactor. destruct (factor_one p n (fst g) ltac:(tauto) ltac:(tauto) Hp HA) as [c [-> _]].
    unfold betti_vec. rewrite betti_curves_ok, map_map. specialize (NE I). cbn [mcurve] in NE |- *.
    rewrite (map_ext (fun x => Some (map IZR (map (fun s => alive_count s x) (fst (fst g))))) (fun x => Some (map (fun s => IZR (alive_count s x)) (fst (fst g))))) by (intros; now rewrite map_map).
    now apply norms_ok.
  - unfold mfactor. destruct (factor_one p n (fst g) ltac:(tauto) ltac:(tauto) Hp HA) as [c [-> _]].
    rewrite landscapes_flat; [|tauto|lia|lia|assumption]. now apply norms_ok, NE.
  - unfold mfactor. destruct (factor_heat p n (fst g) ltac:(tauto) Hp HA) as [c [Ec _]]. rewrite Ec. specialize (NE I). cbn [mcurve] in NE |- *.
    destruct (axis_step n (fst g) ltac:(tauto) HA) as [st [Est _]].
    destruct HA as [lo [hi [Hlh Hgr]]]. rewrite Est in Ec, Hgr, NE |- *. cbv iota. unfold heats.
    assert (T : forall x, In x d -> exists H, heat (x_gauss1 E) (fst (fst g)) st sg x = Ok H).
    { intros x _. destruct (heat_ok (x_gauss1 E) lo hi n (fst (fst g)) st sg x ltac:(tauto) ltac:(tauto) Hlh Hgr) as [H [EH _]]. eauto. }
    destruct (map_flat_res _ d T) as [r1 [-> F1]]. cbn [bind]. rewrite F1, ?Ec. now apply norms_ok.
  - specialize (HB eq_refl). unfold mfactor. destruct (factor_pi p n g ltac:(tauto) Hp HA HB) as [c [Ec _]]. rewrite Ec. specialize (NE I). cbn [mcurve] in NE |- *.
    destruct (axis_step n (fst g) ltac:(tauto) HA) as [st0 [Est0 _]]. destruct (axis_step n (snd g) ltac:(tauto) HB) as [st1 [Est1 _]].
    destruct HA as [lo0 [hi0 [Hlh0 Hgr0]]]. destruct HB as [lo1 [hi1 [Hlh1 Hgr1]]]. rewrite Est0, Est1 in Ec, NE. rewrite Est0 in Hgr0 |- *. rewrite Est1 in Hgr1 |- *. cbv iota. unfold persistence_images.
    assert (T : forall x, In x d -> exists H, persistence_image (x_gauss2 E) (combine (fst (fst g)) (fst (snd g))) (st0, st1) sg (wf (fst (snd g))) x = Ok H).
    { intros x _. destruct (persistence_image_ok (x_gauss2 E) lo0 hi0 lo1 hi1 n (fst (fst g)) (fst (snd g)) st0 st1 sg (wf (fst (snd g))) x) as [H [EH IH]]; try tauto; [|eauto].
      destruct HG as [_ [HW _]]. rewrite HW. apply Hgr1. }
    destruct (map_flat_res _ d T) as [r1 [-> F1]]. cbn [bind]. rewrite F1, ?Ec. now apply norms_ok.
  - unfold mfactor. destruct (factor_one p n (fst g) ltac:(tauto) ltac:(tauto) Hp HA) as [c [-> _]].
    assert (T : silhouettes d (fst (fst g)) pw = Ok (map (fun x => Some (map (silv pw x) (fst (fst g)))) d)).
    { apply mapM_Ok. intros x Hx. apply silhouette_ok; [apply H1; assumption| |apply H1; assumption]. destruct pw; [|exact I]. apply HG. }
    rewrite T. cbn [bind]. now apply norms_ok, NE.
Qed.
