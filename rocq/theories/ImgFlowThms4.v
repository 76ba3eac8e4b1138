(** C94, fourth part: pipelines starting with a filtration of binary images. *)
From Coq Require Import Reals Permutation Lra.
From Verif Require Import Np NpFacts Fl FlFacts Nd NdFacts DiagTypes DiagModel HomModel HomSpec RNp FeatModel FlowModel
  ImgSpec ImgModel ImgProofs ImgProofs2 ImgThms ImgSymSpec ImgSymThms ImgSymThms2 ImgFlowModel ImgFlowSpec ImgFlowThms3.
Open Scope Z_scope.

Lemma dil_wf a K mv x : wf x -> wf (dil a K mv x) /\ nshape (dil a K mv x) = nshape x.
Proof.
  unfold dil. generalize (py_range a (K + 1)) as l. intro l. revert x. induction l as [|i l IH]; intros x W; [auto|]. cbn [fold_left].
  destruct (IH (step1 i mv x) (wf_step1 _ _ _ W)) as [A B]. split; auto.
Qed.
Lemma signed_wf K m x : wf x -> wf (signed K m x) /\ nshape (signed K m x) = nshape x.
Proof.
  intro W. destruct (dil_wf 1 K 0 x W) as [A A']. destruct (dil_wf 0 K 0 (logical_not x) (wf_not x W)) as [B B']. change (nshape (logical_not x)) with (nshape x) in B'.
  split; [|exact A']. unfold signed. cbv zeta. repeat (apply wf_nzip || apply wf_nmap); auto; cbn [nzip nmap nshape]; congruence.
Qed.
Lemma filtration_images k n_iterations s X n_jobs Y R : ImgSpec.images s X -> 1 <= zlen s <= 3 -> valid_iterations n_iterations ->
  ImgSpec.images s Y -> 1 <= n_jobs -> filtration k n_iterations n_jobs X Y = Ok R -> ImgSpec.images s R.
Proof.
  intros HX HL HV HY HJ E. destruct (fit_iterations_ok s n_iterations X HX HL HV) as [K [EK _]].
  assert (W : forall y, In y Y -> wf y) by (intros y Hy; now apply HY).
  assert (G : exists g, R = map g Y /\ forall y, wf y -> wf (g y) /\ nshape (g y) = nshape y).
  { destruct k; cbn [filtration] in E; unfold dilation_filtration, erosion_filtration, signed_distance_filtration in E; rewrite EK in E; cbn [bind fst snd] in E.
    - rewrite (parallel_map _ (fun y => nmap (fun v => if v =? 0 then total_size s else v - 1) (dil 1 (Z.min K (total_size s)) 1 y))) in E; auto; [|apply HY|].
      + injection E as <-. eexists. split; [reflexivity|]. intros y Wy. destruct (dil_wf 1 (Z.min K (total_size s)) 1 y Wy). split; [now apply wf_nmap|assumption].
      + intros b _ HI. unfold calculate_dilation. rewrite dilate_map by auto. now rewrite map_map.
    - rewrite (parallel_map _ (fun y => nmap (fun v => if v =? 0 then total_size s else v - 1) (dil 1 (Z.min K (total_size s)) 1 (logical_not y)))) in E; auto; [|apply HY|].
      + injection E as <-. eexists. split; [reflexivity|]. intros y Wy. destruct (dil_wf 1 (Z.min K (total_size s)) 1 (logical_not y) (wf_not y Wy)). split; [now apply wf_nmap|assumption].
      + intros b _ HI. unfold calculate_erosion, erode. rewrite dilate_map. { now rewrite !map_map. } intros x Hx. apply in_map_iff in Hx. destruct Hx as [z [<- Hz]]. apply wf_not. auto.
    - rewrite (parallel_map _ (signed (Z.min K (total_size s)) (total_size s))) in E; auto; [|apply HY|].
      + injection E as <-. eexists. split; [reflexivity|]. intros y Wy. now apply signed_wf.
      + intros b _ HI. now rewrite signed_map by auto. }
  destruct G as (g & -> & HG). destruct HY as [NY HY]. split; [destruct Y; easy|]. intros r I. apply in_map_iff in I as (y & <- & Iy). destruct (HG y (W y Iy)) as [A B].
  split; auto. rewrite B. now apply HY.
Qed.
Lemma filtration_symmetric k n_iterations s s' sigma X X' Y Y' n_jobs n_jobs' :
  grid_symmetry s s' sigma -> ImgSpec.images s X -> ImgSpec.images s' X' -> 1 <= zlen s <= 3 -> valid_iterations n_iterations ->
  ImgSpec.images s Y -> ImgSpec.images s' Y' -> (forall y, In y Y -> binary y) -> 1 <= n_jobs -> 1 <= n_jobs' -> Forall2 (moved s s' sigma) Y Y' ->
  exists R R', filtration k n_iterations n_jobs X Y = Ok R /\ filtration k n_iterations n_jobs' X' Y' = Ok R' /\ Forall2 (moved s s' sigma) R R'.
Proof.
  intros. destruct (distance_filtrations_symmetric n_iterations s s' sigma X X' Y Y' n_jobs n_jobs') as (A & B & C); auto. destruct k; auto.
Qed.
Lemma images_nmap {A B} (f : A -> B) s X : ImgSpec.images s X -> ImgSpec.images s (map (nmap f) X).
Proof. intros [N H]. split; [destruct X; easy|]. intros y I. apply in_map_iff in I as (x & <- & I). destruct (H x I). split; [now apply wf_nmap|auto]. Qed.
Lemma finite_nmap X : finite_pixels (map (nmap fz) X).
Proof. intros x v I J. apply in_map_iff in I as (y & <- & I). cbn in J. apply in_map_iff in J as (z & <- & _). rewrite fz_qz. eauto. Qed.
Lemma stack_passed s X : ImgSpec.images s X -> passed_as s X (ArrayOf (stack X)).
Proof. intros [N H]. right. unfold stack. destruct X as [|x X]; [easy|]. now rewrite (proj2 (H x (or_introl eq_refl))). Qed.

(** The features that a pipeline of a filtration, cubical persistence and entropy (or number of
    points) gives for binary images do not change when all images, those of fit and those of
    transform, are reflected or get their axes permuted. *)
Theorem image_pipeline_symmetric :
  forall (junk : pt) gudhi k n_iterations dims infinity_values reduced e s s' sigma X X' Y Y' n_jobs n_jobs',
    grid_symmetry s s' sigma -> blind_to_orientation gudhi s s' sigma -> values_are_cells gudhi ->
    dims <> [] -> NoDup dims -> (forall d, In d dims -> 0 <= d) -> (forall v, infinity_values = Some v -> exists q, v = Fin q) ->
    1 <= zlen s <= 3 -> (forall n, In n s -> 1 <= n) -> valid_iterations n_iterations ->
    ImgSpec.images s X -> ImgSpec.images s' X' -> (forall x, In x X -> binary x) -> Forall2 (moved s s' sigma) X X' ->
    ImgSpec.images s Y -> ImgSpec.images s' Y' -> (forall y, In y Y -> binary y) -> Forall2 (moved s s' sigma) Y Y' ->
    1 <= n_jobs -> 1 <= n_jobs' ->
    exists T, image_pipeline junk gudhi k n_iterations dims infinity_values reduced e n_jobs X Y = Ok T /\
              image_pipeline junk gudhi k n_iterations dims infinity_values reduced e n_jobs' X' Y' = Ok T.
Proof.
  intros junk gudhi k ni dims inf reduced e s s' sigma X X' Y Y' n n' G HG HV Hd HN H0 Hinf HL Hpos Hit HX HX' BX MX HY HY' BY MY HJ HJ'.
  assert (HL' : 1 <= zlen s' <= 3) by (rewrite (perm_zlen s s' (proj1 (proj1 G))); auto).
  destruct (filtration_symmetric k ni s s' sigma X X' X X' n n') as (FX & FX' & EX & EX' & RX); auto.
  destruct (filtration_symmetric k ni s s' sigma X X' Y Y' n n') as (FY & FY' & EY & EY' & RY); auto.
  pose proof (filtration_images k ni s X n X FX HX HL Hit HX HJ EX) as IX. pose proof (filtration_images k ni s X n Y FY HX HL Hit HY HJ EY) as IY.
  pose proof (filtration_images k ni s' X' n' X' FX' HX' HL' Hit HX' HJ' EX') as IX'. pose proof (filtration_images k ni s' X' n' Y' FY' HX' HL' Hit HY' HJ' EY') as IY'.
  assert (NE : forall x, In x (map (nmap fz) FX) -> ndata x <> []).
  { intros x I. destruct (proj2 (images_nmap fz s FX IX) x I) as [[_ W] S]. rewrite S in W. intro Z0. rewrite Z0 in W. change (zlen (@nil fl)) with 0 in W.
    assert (1 <= nd_size s); [|lia]. clear - Hpos. induction s as [|m s IH]; [cbn; lia|]. change (nd_size (m :: s)) with (m * nd_size s).
    specialize (IH (fun a I => Hpos a (or_intror I))). pose proof (Hpos m (or_introl eq_refl)). nia. }
  destruct (image_features_symmetric junk gudhi dims inf reduced s s' sigma (map (nmap fz) FX) (map (nmap fz) FX') (ArrayOf (stack (map (nmap fz) FX))) (ArrayOf (stack (map (nmap fz) FX')))
    (map (nmap fz) FY) (map (nmap fz) FY') n n') as (c & c' & DX & DX' & DY & DY' & E1 & E1' & E2 & E2' & E3 & E3' & K1 & K2 & _); auto;
    try (now apply images_nmap); try (now apply stack_passed, images_nmap); try (now apply moved_nmap); try apply finite_nmap.
  unfold image_pipeline. rewrite EX, EX'. cbn [bind]. rewrite E1, E1'. cbn [bind]. rewrite E2, E2'. cbn [bind]. rewrite EY, EY'. cbn [bind]. rewrite E3, E3'. cbn [bind].
  destruct e as [normalize fill|]; cbn [feature].
  - apply K1.
  - destruct K2 as (T & -> & ->). cbn [bind]. eauto.
Qed.
Print Assumptions image_pipeline_symmetric.
