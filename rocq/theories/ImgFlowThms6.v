(** C95: what an image pipeline computes. *)
From Coq Require Import Reals Permutation Lra.
From Verif Require CurveThms2 FlowThms2.
From Verif Require Import PipeProofs Np NpFacts Fl FlFacts Nd NdFacts DiagTypes DiagModel DiagSpec DiagThms VecModel VecSpec RNp MetricSpec FeatModel FeatSpec
  HomModel HomSpec HomProofs HomThms FlowModel FlowSpec FlowThms
  ImgSpec ImgModel ImgProofs3 ImgProofs4 ImgThms ImgSymSpec ImgSymThms ImgSymThms2 ImgFlowModel ImgFlowSpec ImgFlowSpec2 ImgFlowThms3 ImgFlowThms4.
Open Scope Z_scope.

Lemma pairs_off_diagonal reduced inf b dim : (forall p, In p (nontrivial_rows reduced inf b dim) -> exists b d, pb p = Fin b /\ pd p = Fin d) ->
  off_diagonal (pairs (nontrivial_rows reduced inf b dim)) = pairs (nontrivial_rows reduced inf b dim).
Proof.
  unfold off_diagonal, pairs. assert (F : forall p, In p (nontrivial_rows reduced inf b dim) -> flt (pb p) (pd p) = true).
  { intros p I. unfold nontrivial_rows in I. now apply filter_In in I. }
  intro FI. induction (nontrivial_rows reduced inf b dim) as [|p l IH]; [reflexivity|]. cbn [map filter].
  destruct (FI p (or_introl eq_refl)) as (x & d & Eb & Ed). rewrite Eb, Ed. cbn [fst snd].
  specialize (F p (or_introl eq_refl)) as Fp. rewrite Eb, Ed in Fp. cbn in Fp. destruct (Qcltb_spec x d); [|easy].
  destruct (Qceqb_spec x d); [exfalso; subst; qlra|]. cbn [negb]. f_equal. apply IH; intros; [apply F|apply FI]; now right.
Qed.
Lemma collection_points {A} junk (dg : A -> backend) f reduced X R :
  X <> [] -> f_dims f <> [] -> NoDup (f_dims f) ->
  (forall x dim, In x X -> In dim (f_dims f) -> has_dimension (dg x) dim) ->
  (forall x dim p, In x X -> In dim (f_dims f) -> In p (nontrivial_rows reduced (f_inf f) (dg x) dim) -> exists b d, pb p = Fin b /\ pd p = Fin d) ->
  hom_transform junk dg f reduced X = Ok R ->
  (forall dim, In dim (f_dims f) -> In (fz dim) (map pq (hd [] R))) /\
  Forall2 (fun x r => forall dim, In dim (f_dims f) -> points_of (fz dim) r <> [] /\
    off_diagonal (points_of (fz dim) r) = pairs (nontrivial_rows reduced (f_inf f) (dg x) dim)) X R.
Proof.
  intros HX Hd HN HD HF ER. destruct (transform_ok junk dg f reduced X HX Hd HN HD) as (R0 & ER0 & HL & HM & HQ & HE). assert (R0 = R) as -> by congruence.
  assert (NR : R <> []) by (destruct R; [|easy]; destruct X; [easy|]; rewrite zlen_cons in HL; pose proof (zlen_nonneg X); cbn in HL; lia).
  assert (Hd0 : In (hd [] R) R) by (destruct R; [easy|now left]). split.
  { intros dim I. pose proof (HE _ dim Hd0 I) as NE. destruct (rows_of (fz dim) (hd [] R)) as [|p l] eqn:Er; [easy|].
    assert (Ip : In p (rows_of (fz dim) (hd [] R))) by (rewrite Er; now left). apply filter_In in Ip as [Ip Eq].
    apply in_map_iff. exists p. split; auto. apply In_Znth in Hd0 as (i & B & Hi). destruct (Znth_ex X i) as [x Hx]; [unfold diagram in *; lia|].
    destruct (proj2 (HM _ _ _ Hx Hi) p Ip) as (dim' & _ & Ep). rewrite Ep in Eq |- *. rewrite feq_fz in Eq. f_equal. lia. }
  apply CurveThms2.Forall2_of_Znth; [unfold diagram in *; lia|]. intros i x r Hx Hi dim Hdim. assert (Ir : In r R) by (eapply Znth_In; eauto). assert (Ix : In x X) by (eapply Znth_In; eauto). split.
  - unfold points_of. intro Z0. apply map_eq_nil in Z0. now apply (HE r dim Ir Hdim).
  - rewrite <- (pairs_off_diagonal reduced (f_inf f) (dg x) dim) by (intros p I; eapply HF; eauto). unfold hom_transform in ER.
    destruct (postprocess_rows_of_dimension junk (map dg X) (f_dims f) (f_inf f) reduced R) with (dim := dim) as (n & m & _ & P & Q); auto.
    { destruct X; easy. } { intros b e Ib. apply in_map_iff in Ib as (x0 & <- & Ix0). auto. }
    rewrite !map_map in *. apply (f_equal (fun L => Znth L i)) in Q. rewrite !Znth_map, Hi, Hx in Q. cbn in Q. injection Q as Q.
    unfold points_of. rewrite Q. unfold padded. rewrite map_app. unfold off_diagonal. rewrite filter_app. fold (pairs (nontrivial_rows reduced (f_inf f) (dg x) dim)).
    rewrite <- (app_nil_r (filter _ (pairs (nontrivial_rows reduced (f_inf f) (dg x) dim)))) at 2. f_equal. unfold diag_rows. generalize (Z.to_nat (n - zlen (nontrivial_rows reduced (f_inf f) (dg x) dim))) as k.
    induction k as [|k IH]; [reflexivity|]. cbn [repeat map filter pb pd].
    assert (EE : Qceqb (fst match m with Fin b => match m with Fin d => (b, d) | _ => (0, 0)%Qc end | _ => (0, 0)%Qc end) (snd match m with Fin b => match m with Fin d => (b, d) | _ => (0, 0)%Qc end | _ => (0, 0)%Qc end) = true).
    { destruct m; cbn [fst snd]; match goal with |- Qceqb ?a ?b = true => destruct (Qceqb_spec a b); easy end. }
    rewrite EE. cbn [negb]. exact IH.
Qed.

Lemma id_symmetry s : grid_symmetry s s (fun p => p).
Proof. split; [split; [apply Permutation_refl|split; [auto|split; eauto]]|auto]. Qed.
Lemma filtered_unique f k m x p v w : wf x -> binary x -> inside (nshape x) p = true -> is_filtered f k m x p v -> is_filtered f k m x p w -> w = v.
Proof.
  intros W B I V V'. assert (M : moved (nshape x) (nshape x) (fun p => p) x x).
  { split; auto. split; auto. intros q Iq. destruct (at_Some x q W Iq) as [u E]. eauto. }
  destruct f; cbn in V, V'.
  - exact (dilation_moved _ _ _ k m x x p v w (id_symmetry _) M I V V').
  - exact (erosion_moved _ _ _ k m x x p v w (id_symmetry _) M I V V').
  - exact (signed_moved _ _ _ k m x x p v w B (id_symmetry _) M I V V').
Qed.
Lemma filtration_ok f n_iterations s X n_jobs Y : ImgSpec.images s X -> 1 <= zlen s <= 3 -> valid_iterations n_iterations ->
  ImgSpec.images s Y -> (forall y, In y Y -> binary y) -> 1 <= n_jobs ->
  exists R, filtration f n_iterations n_jobs X Y = Ok R /\ ImgSpec.images s R /\
    Forall2 (fun y r => pixelwise (is_filtered f (step_count n_iterations (total_size s)) (total_size s) y) y r) Y R.
Proof.
  intros HX HL HV HY HB HJ.
  assert (G : exists g, filtration f n_iterations n_jobs X Y = Ok (map g Y) /\
    forall y, In y Y -> pixelwise (is_filtered f (step_count n_iterations (total_size s)) (total_size s) y) y (g y)).
  { destruct f; cbn [filtration is_filtered].
    - destruct (dilation_filtration_spec n_iterations s X HX HL HV) as [g H]. exists g. now apply (H s).
    - destruct (erosion_filtration_spec n_iterations s X HX HL HV) as [g H]. exists g. now apply (H s).
    - destruct (signed_distance_filtration_spec n_iterations s X HX HL HV) as [g H]. exists g. now apply (H s). }
  destruct G as (g & E & P). exists (map g Y). split; auto. split; [now apply (filtration_images f n_iterations s X n_jobs Y)|].
  clear - P. induction Y as [|y Y IH]; cbn; constructor; [apply P; now left|apply IH; intros; apply P; now right].
Qed.

(** The features of a pipeline of a filtration, cubical persistence and a scalar feature: one row
    for each image, computed from that image alone, given the value for infinite deaths, which is
    the only thing that depends on the images of fit besides their shape. *)
Theorem image_pipeline_spec :
  forall (junk : pt) gudhi f n_iterations dims sorted infinity_values reduced e s X Y n_jobs,
    values_are_cells gudhi -> dims <> [] -> NoDup dims -> (forall d, In d dims -> 0 <= d) -> sorted_dimensions dims sorted ->
    (forall v, infinity_values = Some v -> exists q, v = Fin q) ->
    1 <= zlen s <= 3 -> (forall n, In n s -> 1 <= n) -> valid_iterations n_iterations ->
    ImgSpec.images s X -> (forall x, In x X -> binary x) -> ImgSpec.images s Y -> (forall y, In y Y -> binary y) -> 1 <= n_jobs ->
    let m := total_size s in let k := step_count n_iterations m in
    exists inf T, is_infinity_value infinity_values f k m X inf /\
      image_pipeline junk gudhi f n_iterations dims infinity_values reduced e n_jobs X Y = Ok T /\
      Forall2 (image_row gudhi f k m reduced inf e sorted) Y T.
Proof.
  intros junk gudhi f ni dims sorted inf reduced e s X Y n HV Hd HN H0 HS Hinf HL Hpos Hit HX BX HY BY HJ m k.
  destruct (filtration_ok f ni s X n X HX HL Hit HX BX HJ) as (FX & EX & IX & PX). destruct (filtration_ok f ni s X n Y HX HL Hit HY BY HJ) as (FY & EY & IY & PY). fold m in PX, PY. fold k in PX, PY.
  pose proof (images_nmap fz s FX IX) as JX. pose proof (images_nmap fz s FY IY) as JY.
  assert (NE : forall x, In x (map (nmap fz) FX) -> ndata x <> []).
  { intros x I. destruct (proj2 JX x I) as [[_ W] S]. rewrite S in W. intro Z0. rewrite Z0 in W. change (zlen (@nil fl)) with 0 in W.
    assert (1 <= nd_size s); [|lia]. clear - Hpos. induction s as [|a s IH]; [cbn; lia|]. change (nd_size (a :: s)) with (a * nd_size s).
    specialize (IH (fun b I => Hpos b (or_intror I))). pose proof (Hpos a (or_introl eq_refl)). nia. }
  pose proof (stack_passed s _ JX) as HF. set (F := ArrayOf (stack (map (nmap fz) FX))) in *.
  assert (HP : has_pixels F /\ number_of_images F (zlen (map (nmap fz) FX))).
  { destruct JX as [NX _]. unfold F. destruct (map (nmap fz) FX) as [|z Z] eqn:EZ; [easy|]. cbn. split; [|eauto]. pose proof (NE z (or_introl eq_refl)). destruct (ndata z); easy. }
  destruct HP as [P1 P2]. assert (L1 : 1 <= zlen (map (nmap fz) FX)) by (destruct JX as [NX _]; destruct (map (nmap fz) FX) as [|z Z]; [easy|]; rewrite zlen_cons; pose proof (zlen_nonneg Z); lia).
  assert (Hn : forall v, pixel F v -> isnan v = false).
  { intros v Hv. apply (ImgFlowThms2.passed_pixel s _ F v HF) in Hv as (x & I & J). destruct (finite_nmap FX x v I J) as [q ->]. reflexivity. }
  destruct (cubical_fit_spec dims None inf F _ Hd P2 L1 P1 Hn) as (c & Ec & Pc & Sc & Ic & _ & Nc).
  assert (FI : exists q, f_inf (c_fit c) = Fin q).
  { destruct inf as [v|]; [rewrite Ic; now apply Hinf|]. destruct Ic as [A _]. apply (ImgFlowThms2.passed_pixel s _ F _ HF) in A as (x & I & J). exact (finite_nmap FX x _ I J). }
  assert (D1 : f_dims (c_fit c) <> []) by (intro E; rewrite E in Pc; symmetry in Pc; now apply Permutation_nil in Pc).
  assert (D2 : NoDup (f_dims (c_fit c))) by (eapply Permutation_NoDup; eassumption).
  assert (DQ : forall d, In d (f_dims (c_fit c)) <-> In d dims) by (intro d; split; apply Permutation_in; [now symmetry|auto]).
  assert (HD : forall (x : nd fl) dim, In dim (f_dims (c_fit c)) -> has_dimension (Tagged (gudhi (cubical_arguments c x))) dim) by (intros; split; [now apply H0, DQ|exact I]).
  assert (HR : forall W, (forall w, In w W -> wf w) -> forall x dim p, In x (map (nmap fz) W) -> In dim (f_dims (c_fit c)) -> In p (nontrivial_rows reduced (f_inf (c_fit c)) (Tagged (gudhi (cubical_arguments c x))) dim) -> exists b d, pb p = Fin b /\ pd p = Fin d).
  { intros W HW x dim p Ix _ Ip. eapply cubical_rows_finite; eauto; [|intros v J; exact (finite_nmap W x v Ix J)]. apply in_map_iff in Ix as (w & <- & Iw). now apply wf_nmap, HW. }
  assert (WX : forall w, In w FX -> wf w) by (intros w I; now apply IX). assert (WY : forall w, In w FY -> wf w) by (intros w I; now apply IY).
  destruct (transform_ok junk (fun x => Tagged (gudhi (cubical_arguments c x))) (c_fit c) reduced (map (nmap fz) FX) (proj1 JX) D1 D2 (fun x dim _ => HD x dim)) as (DX & EDX & _).
  destruct (transform_ok junk (fun x => Tagged (gudhi (cubical_arguments c x))) (c_fit c) reduced (map (nmap fz) FY) (proj1 JY) D1 D2 (fun x dim _ => HD x dim)) as (DY & EDY & _).
  destruct (collection_accepted junk _ (c_fit c) reduced _ DX (proj1 JX) D1 D2 (fun x dim _ => HD x dim) (HR FX WX) EDX) as (TX & _ & QX).
  destruct (collection_accepted junk _ (c_fit c) reduced _ DY (proj1 JY) D1 D2 (fun x dim _ => HD x dim) (HR FY WY) EDY) as (_ & TY & _). specialize (TY (map pq (hd [] DX)) QX).
  destruct (collection_points junk _ (c_fit c) reduced _ DX (proj1 JX) D1 D2 (fun x dim _ => HD x dim) (HR FX WX) EDX) as (QX' & _).
  destruct (collection_points junk _ (c_fit c) reduced _ DY (proj1 JY) D1 D2 (fun x dim _ => HD x dim) (HR FY WY) EDY) as (_ & PD).
  destruct (FlowThms2.feature_ok (A := unit) junk (fun _ _ _ => []) e n DX DY sorted HJ TX TY) as (T & ET & FT).
  { split; [now apply (sorted_increasing dims)|]. intro q. rewrite in_map_iff. destruct HS as [HS _]. split.
    - intros (z & <- & I). apply QX', DQ. now apply HS.
    - intro I. destruct (QX q I) as (z & J & ->). exists z. split; auto. now apply HS, DQ. }
  exists (f_inf (c_fit c)), T. split; [|split].
  - unfold is_infinity_value. destruct inf as [v|]; [exact Ic|]. destruct Ic as [A B].
    apply (ImgFlowThms2.passed_pixel s _ F _ HF) in A as (x' & I & J). apply in_map_iff in I as (z & <- & Iz). cbn in J. apply in_map_iff in J as (u & Eu & Iu). exists u. split; auto.
    apply In_ndata in Iu as [p Ep]; [|auto].
    assert (K : forall z, In z FX -> exists x, In x X /\ pixelwise (is_filtered f k m x) x z).
    { clear - PX. induction PX as [|x r X R P PX IH]; intros z []; [subst; exists x; split; [now left|auto]|]. destruct (IH z H) as (x' & J & Q). exists x'. split; [now right|auto]. }
    assert (K' : forall x, In x X -> exists z, In z FX /\ pixelwise (is_filtered f k m x) x z).
    { clear - PX. induction PX as [|x r X R P PX IH]; intros z []; [subst; exists r; split; [now left|auto]|]. destruct (IH z H) as (x' & J & Q). exists x'. split; [now right|auto]. }
    split.
    + destruct (K z Iz) as (x & Ix & [S P]). exists x, p. pose proof (at_inside _ _ _ Ep) as Ip. rewrite S in Ip. split; auto. split; auto.
      destruct (P p Ip) as (v & Hv & Q). assert (v = u) as -> by congruence. exact Q.
    + intros x q v Ix Iq V. destruct (K' x Ix) as (z' & Iz' & [S P]). destruct (P q Iq) as (w & Hw & Q).
      assert (w = v) as -> by (destruct (proj2 HX x Ix) as [Wx _]; exact (filtered_unique f k m x q v w Wx (BX x Ix) Iq V Q)).
      assert (L : fle (fz v) (f_inf (c_fit c)) = true).
      { apply B. apply (ImgFlowThms2.passed_pixel s _ F _ HF). exists (nmap fz z'). split; [now apply in_map|]. cbn. apply in_map. now apply nget_In in Hw. }
      rewrite <- Eu in L. rewrite !fz_qz in L. cbn [fle] in L. destruct (Qcleb_spec (qz v) (qz u)) as [L'|]; [|easy]. exact (proj1 (qz_le v u) L').
  - unfold image_pipeline. rewrite EX. cbn [bind]. fold F. rewrite Ec. cbn [bind]. unfold cubical_transform. rewrite EDX. cbn [bind]. rewrite EY. cbn [bind]. rewrite EDY. cbn [bind].
    destruct e as [nm fill|]; cbn [feature FlowModel.est_transform] in ET |- *.
    + destruct (persistence_entropy nm fill n DX DY) as [V|]; cbn [bind] in ET; [|easy]. congruence.
    + destruct (number_of_points n DX DY) as [V|]; cbn [bind] in ET |- *; [|easy]. congruence.
  - assert (G : forall y z r row, wf z -> nshape y = s -> pixelwise (is_filtered f k m y) y z ->
      (forall dim, In dim (f_dims (c_fit c)) -> points_of (fz dim) r <> [] /\ off_diagonal (points_of (fz dim) r) = pairs (nontrivial_rows reduced (f_inf (c_fit c)) (Tagged (gudhi (cubical_arguments c (nmap fz z)))) dim)) ->
      Forall2 (fun dim v => points_of (fz dim) r <> [] -> feature_value e (off_diagonal (points_of (fz dim) r)) v) sorted row ->
      image_row gudhi f k m reduced (f_inf (c_fit c)) e sorted y row).
    { intros y z r row Wz Sy P Q V. exists z, (flatten_F (nmap fz z)). split; auto. split; auto. destruct (flatten_F_ok (nmap fz z) (wf_nmap fz z Wz)) as [A B]. split.
      - split; auto. intros idx Ii. destruct (at_Some (nmap fz z) idx (wf_nmap fz z Wz) Ii) as [v Hv]. exists v. split; auto. now rewrite B, Hv.
      - assert (KQ : forall dim, In dim sorted -> In dim (f_dims (c_fit c))) by (intros dim I; now apply DQ, (proj1 HS)).
        revert KQ. clear - V Q Nc P. induction V as [|dim v l row V _ IH]; intro KQ; constructor; [|apply IH; intros; apply KQ; now right].
        destruct (Q dim (KQ dim (or_introl eq_refl))) as [N E]. specialize (V N). rewrite E in V. unfold cubical_arguments in V. rewrite Nc in V.
        change (nshape (nmap fz z)) with (nshape z) in V. now rewrite (proj1 P) in V. }
    destruct HY as [_ HY]. assert (SY : forall y, In y Y -> nshape y = s) by (intros y I; now apply HY). clear - PY PD FT G SY WY. revert PD. revert DY T FT WY.
    induction PY as [|y z Y FY P PY IH]; intros DY T FT WY PD; cbn in PD; inversion PD as [|? r ? DY' Q PD']; subst; inversion FT as [|? row ? T' V FT']; subst; constructor.
    + apply (G y z r row); auto; [apply WY; now left|apply SY; now left].
    + apply (IH ltac:(intros; apply SY; now right) DY' T' FT'); auto. intros; apply WY; now right.
Qed.
Print Assumptions image_pipeline_spec.
