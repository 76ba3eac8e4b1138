(** Theorems about image filtrations by iterated dilation and image
    preprocessing: C32, C33, C34, C38, C39 (and C26). *)
From Verif Require Import Np NpFacts Nd NdFacts Fl FlFacts VecModel SliceFacts ImgModel ImgSpec ImgProofs ImgProofs2 ImgProofs3.
Open Scope Z_scope.

(** ** C32: DilationFiltration.  Fitted on images of shape s (max_value_ is the
    sum of the sizes), a pixel of a binary image gets its taxicab distance to
    the closest activated pixel if that is at most n_iterations, and max_value_
    otherwise; the number of jobs does not matter. *)
Theorem dilation_filtration_spec n_iterations s X :
  images s X -> 1 <= zlen s <= 3 -> valid_iterations n_iterations ->
  let m := total_size s in
  exists f, forall s' Y n_jobs, images s' Y -> (forall y, In y Y -> binary y) -> 1 <= n_jobs ->
    dilation_filtration n_iterations n_jobs X Y = Ok (map f Y) /\
    forall y, In y Y -> pixelwise (is_dilation (step_count n_iterations m) m y) y (f y).
Proof.
  intros HX HL HV m. destruct (fit_iterations_ok s n_iterations X HX HL HV) as [k [E Ek]]. pose proof (total_size_nonneg s X HX) as M0. fold m in E, Ek, M0.
  pose proof (step_count_nonneg n_iterations m HV M0) as K0.
  exists (fun y => nmap (fun v => if v =? 0 then m else v - 1) (dil 1 (Z.min k m) 1 y)). intros s' Y n_jobs HY HB HJ.
  assert (W : forall y, In y Y -> wf y) by (intros y Hy; now apply HY). split.
  - unfold dilation_filtration. rewrite E. cbn [bind fst snd]. apply parallel_map; [assumption|apply HY|]. intros b Hb HI. f_equal. unfold calculate_dilation.
    rewrite dilate_map by auto. now rewrite map_map.
  - intros y Hy. rewrite Ek. apply inv_dilation; [assumption|]. apply dil_inv; auto; lia.
Qed.
(** With the default n_iterations, images of the fitted shape get the exact
    distance everywhere (if they have an activated pixel). *)
Theorem dilation_filtration_exact s y r idx d :
  1 <= zlen s <= 3 -> nshape y = s -> inside s idx = true ->
  is_dilation (step_count None (total_size s)) (total_size s) y idx r ->
  closest y 1 idx d -> r = d /\ d < total_size s.
Proof.
  intros HL HS HI [A _] HC. rewrite (A d HC). cbn [step_count]. assert (B : d < total_size s).
  { destruct HC as [[j [Hj <-]] _]. apply taxicab_bound; [assumption| |].
    - apply at_inside in Hj. now rewrite HS in Hj.
    - intros ->. change (zlen (@nil Z)) with 0 in HL. lia. }
  split; [|assumption]. destruct (Z.leb_spec d (total_size s)); [reflexivity|lia].
Qed.

(** ** C33: ErosionFiltration: distance to the closest deactivated pixel, and
    duality with dilation. *)
Theorem erosion_filtration_spec n_iterations s X :
  images s X -> 1 <= zlen s <= 3 -> valid_iterations n_iterations ->
  let m := total_size s in
  exists f, forall s' Y n_jobs, images s' Y -> 1 <= n_jobs -> (forall y, In y Y -> binary y) ->
    erosion_filtration n_iterations n_jobs X Y = Ok (map f Y) /\
    forall y, In y Y -> pixelwise (is_erosion (step_count n_iterations m) m y) y (f y).
Proof.
  intros HX HL HV m. destruct (fit_iterations_ok s n_iterations X HX HL HV) as [k [E Ek]]. pose proof (total_size_nonneg s X HX) as M0. fold m in E, Ek, M0.
  pose proof (step_count_nonneg n_iterations m HV M0) as K0.
  exists (fun y => nmap (fun v => if v =? 0 then m else v - 1) (dil 1 (Z.min k m) 1 (logical_not y))). intros s' Y n_jobs HY HJ HB.
  assert (W : forall y, In y Y -> wf y) by (intros y Hy; now apply HY). split.
  - unfold erosion_filtration. rewrite E. cbn [bind fst snd]. apply parallel_map; [assumption|apply HY|]. intros b Hb HI. f_equal. unfold calculate_erosion, erode.
    rewrite dilate_map. { now rewrite !map_map. } intros x Hx. apply in_map_iff in Hx. destruct Hx as [z [<- Hz]]. apply wf_not. auto.
  - intros y Hy. rewrite Ek. pose proof (dil_inv (logical_not y) (step_count n_iterations m) 1 ltac:(lia) K0 (wf_not y (W y Hy)) (binary_not y)) as HI.
    destruct (inv_dilation _ _ m _ K0 HI) as [S P]. split; [exact S|]. intros idx I. destruct (P idx I) as [v [Hv Q]]. exists v. split; [assumption|]. now apply dilation_not.
Qed.
Theorem erosion_is_dual n_iterations n_jobs n_jobs' s X s' Y Y' :
  images s X -> 1 <= zlen s <= 3 -> valid_iterations n_iterations -> images s' Y -> (forall y, In y Y -> binary y) ->
  Forall2 inverted Y Y' -> 1 <= n_jobs -> 1 <= n_jobs' ->
  erosion_filtration n_iterations n_jobs X Y = dilation_filtration n_iterations n_jobs' X Y'.
Proof.
  intros HX HL HV HY HB F HJ HJ'.
  assert (E : Y' = map logical_not Y).
  { destruct HY as [_ HY]. clear HX HL HV. induction F as [|y y' Y Y' [W [S H]] F IH]; [reflexivity|]. cbn [map]. f_equal.
    - apply nd_ext; [assumption|apply wf_not; apply HY; now left|exact S|]. intros idx I. rewrite S in I. destruct (at_Some y idx (proj1 (HY y (or_introl eq_refl))) I) as [v Hv].
      rewrite (H idx v Hv). unfold logical_not. rewrite at_nmap, Hv. cbn [option_map]. destruct (HB y (or_introl eq_refl) idx v Hv) as [->| ->]; reflexivity.
    - apply IH; intros; [apply HY|apply HB]; now right. }
  subst Y'. clear F. destruct (fit_iterations_ok s n_iterations X HX HL HV) as [k [Ek _]]. unfold erosion_filtration, dilation_filtration. rewrite Ek. cbn [bind fst snd].
  assert (W : forall y, In y Y -> wf y) by (intros y Hy; now apply HY).
  rewrite (parallel_map _ (fun y => nmap (fun v => if v =? 0 then total_size s else v - 1) (dil 1 (Z.min k (total_size s)) 1 (logical_not y)))); [|assumption|apply HY|].
  - rewrite (parallel_map _ (fun y => nmap (fun v => if v =? 0 then total_size s else v - 1) (dil 1 (Z.min k (total_size s)) 1 y))); [|assumption| |].
    + now rewrite map_map.
    + destruct HY as [HY _]. destruct Y; easy.
    + intros b Hb HI. unfold calculate_dilation. rewrite dilate_map; [now rewrite map_map|]. intros x Hx. apply HI in Hx. apply in_map_iff in Hx. destruct Hx as [z [<- Hz]]. apply wf_not. auto.
  - intros b Hb HI. unfold calculate_erosion, erode. rewrite dilate_map; [now rewrite !map_map|]. intros x Hx. apply in_map_iff in Hx. destruct Hx as [z [<- Hz]]. apply wf_not. auto.
Qed.

(** ** C34: SignedDistanceFiltration. *)
Theorem signed_distance_filtration_spec n_iterations s X :
  images s X -> 1 <= zlen s <= 3 -> valid_iterations n_iterations ->
  let m := total_size s in
  exists f, forall s' Y n_jobs, images s' Y -> (forall y, In y Y -> binary y) -> 1 <= n_jobs ->
    signed_distance_filtration n_iterations n_jobs X Y = Ok (map f Y) /\
    forall y, In y Y -> pixelwise (is_signed_distance (step_count n_iterations m) m y) y (f y).
Proof.
  intros HX HL HV m. destruct (fit_iterations_ok s n_iterations X HX HL HV) as [k [E Ek]]. pose proof (total_size_nonneg s X HX) as M0. fold m in E, Ek, M0.
  pose proof (step_count_nonneg n_iterations m HV M0) as K0.
  exists (signed (Z.min k m) m). intros s' Y n_jobs HY HB HJ.
  assert (W : forall y, In y Y -> wf y) by (intros y Hy; now apply HY). split.
  - unfold signed_distance_filtration. rewrite E. cbn [bind fst snd]. apply parallel_map; [assumption|apply HY|]. intros b Hb HI. f_equal. apply signed_map. auto.
  - intros y Hy. rewrite Ek. apply signed_ok; auto.
Qed.
(** The sign tells activated from deactivated pixels. *)
Theorem signed_distance_sign k m x idx v :
  0 <= k -> 0 < m -> wf x -> binary x -> inside (nshape x) idx = true -> is_signed_distance k m x idx v ->
  (nget x idx = Some 1 <-> 0 <= v) /\ (nget x idx = Some 0 <-> v < 0).
Proof.
  intros K M W B I [P Q]. destruct (at_Some x idx W I) as [u Hu].
  assert (D : forall c d, closest x c idx d -> nget x idx <> Some c -> 1 <= d).
  { intros c d [[j [Hj E]] _] N. pose proof (taxicab_nonneg idx j). destruct (Z.eq_dec d 0) as [->|]; [|lia]. exfalso. apply N. rewrite <- Hj. f_equal. apply taxicab_0; [|assumption].
    rewrite (inside_length _ _ I), (inside_length _ _ (at_inside _ _ _ Hj)). reflexivity. }
  assert (H1 : nget x idx = Some 1 -> 0 <= v).
  { intros H. destruct (P H) as [P1 P2]. destruct (near_dec (logical_not x) (total_size (nshape x)) idx) as [N|N].
    - destruct (near_closest _ _ _ N) as [d [_ HC]]. apply closest_not in HC. rewrite (P1 d HC). assert (1 <= d) by (apply (D 0); [assumption|congruence]). destruct (d <=? k); lia.
    - rewrite P2; [lia|]. intros j Hj. apply N. exists j. split; [now apply not_1|]. assert (nshape x <> []) by (intros E; pose proof (at_inside _ _ _ Hj) as IJ; rewrite E in I, IJ; destruct idx, j; try discriminate; congruence).
      pose proof (taxicab_bound _ idx j I (at_inside _ _ _ Hj) H0). lia. }
  assert (H2 : nget x idx = Some 0 -> v < 0).
  { intros H. destruct (Q H) as [P1 P2]. destruct (near_dec x (total_size (nshape x)) idx) as [N|N].
    - destruct (near_closest _ _ _ N) as [d [_ HC]]. rewrite (P1 d HC). assert (1 <= d) by (apply (D 1); [assumption|congruence]). destruct (d <=? k); lia.
    - rewrite P2; [lia|]. intros j Hj. apply N. exists j. split; [assumption|]. assert (nshape x <> []) by (intros E; pose proof (at_inside _ _ _ Hj) as IJ; rewrite E in I, IJ; destruct idx, j; try discriminate; congruence).
      pose proof (taxicab_bound _ idx j I (at_inside _ _ _ Hj) H0). lia. }
  destruct (B idx u Hu) as [->| ->]; split; split; intros H; try (apply H1; assumption); try (apply H2; assumption); try congruence; try assumption; exfalso; [apply H2 in Hu|apply H1 in Hu]; lia.
Qed.

(** ** C38: Binarizer, Inverter, Padder. *)
Theorem binarizer_spec threshold n_jobs s s' X Y :
  (0 < threshold)%Qc -> (threshold <= 1)%Qc -> 1 <= n_jobs ->
  images s X -> 1 <= zlen s <= 3 -> (forall n, In n s -> 0 < n) -> images s' Y ->
  exists m, largest X m /\ exists R, binarizer threshold n_jobs X Y = Ok R /\
    Forall2 (fun y r => nshape r = nshape y /\
      forall idx v, nget y idx = Some v ->
        exists b, nget r idx = Some b /\ is_binarized threshold m v b) Y R.
Proof. exact (binarizer_ok threshold n_jobs s s' X Y). Qed.
(** Brighter pixels stay brighter, unless all training pixels are negative. *)
Theorem binarizer_monotone t m v w b c :
  (0 < t)%Qc -> (0 <= m)%Qc -> (v <= w)%Qc -> is_binarized t m v b -> is_binarized t m w c -> b = true -> c = true.
Proof.
  intros Ht Hm Hv [B1 B2] [C1 C2] E. destruct (Qceqb_spec m 0) as [M|M].
  - apply C2; [assumption|]. apply (Qclt_le_trans _ v); [|assumption]. now apply B2.
  - apply C1; [assumption|]. apply (Qclt_le_trans _ (v / m)); [now apply B1|]. unfold Qcdiv. apply Qcmult_le_compat_r; [assumption|].
    apply Qcle_lt_or_eq in Hm. destruct Hm as [Hm|Hm]; [|congruence]. apply Qclt_le_weak. apply Qcnot_le_lt. intros L.
    assert (K : (m * / m <= m * 0)%Qc). { rewrite (Qcmult_comm m (/ m)), (Qcmult_comm m 0). apply Qcmult_le_compat_r; [assumption|]. now apply Qclt_le_weak. }
    rewrite Qcmult_inv_r, Qcmult_0_r in K by assumption. now apply (Qclt_not_le 0 1).
Qed.
(** Finding: when all training pixels are negative, darker pixels are turned on
    and brighter ones off. *)
Theorem binarizer_monotone_refuted : exists t X Y, (0 < t)%Qc /\ (t <= 1)%Qc /\ images [1; 2] X /\ Y = [Nd [1; 2] [- qz 2; qz 3]%Qc] /\
  binarizer t 1 X Y = Ok [Nd [1; 2] [true; false]].
Proof.
  exists 1%Qc, [Nd [1; 2] [- qz 1; - qz 1]%Qc], [Nd [1; 2] [- qz 2; qz 3]%Qc]. repeat match goal with |- _ /\ _ => split end; try reflexivity; try easy.
  split; [easy|]. intros x [<-|[]]. split; [split; [intros n [<-|[<-|[]]]; lia|reflexivity]|reflexivity].
Qed.

Definition of_kind (mv : max_param) (X Y : batch) : Prop :=
  match mv, X, Y with
  | MVNone, BBool _, BBool _ | MVNone, BNum _, BNum _ | MVBool true, _, BBool _ | MVNum _, _, BNum _ => True
  | _, _, _ => False
  end.
Definition images_b (s : list Z) (X : batch) : Prop := match X with BBool X => images s X | BNum X => images s X end.
(** The inverted collection: negation, or the difference from max_value, by
    default the largest training pixel. *)
Definition is_inversion (mv : max_param) (X Y Y' : batch) : Prop :=
  match Y, Y' with
  | BBool Y, BBool Y' => Forall2 (fun y y' => nshape y' = nshape y /\ forall idx v, nget y idx = Some v -> nget y' idx = Some (negb v)) Y Y'
  | BNum Y, BNum Y' => exists m,
      match mv, X with MVNum q, _ => m = q | _, BNum X => largest X m | _, _ => False end /\
      Forall2 (fun y y' => nshape y' = nshape y /\ forall idx v, nget y idx = Some v -> nget y' idx = Some (m - v)%Qc) Y Y'
  | _, _ => False
  end.
Lemma Forall2_nmap {A B} (f : A -> B) Y : Forall2 (fun y y' => nshape y' = nshape y /\ forall idx v, nget y idx = Some v -> nget y' idx = Some (f v)) Y (map (nmap f) Y).
Proof. induction Y; constructor; [|assumption]. split; [reflexivity|]. intros idx v H. now rewrite at_nmap, H. Qed.
Theorem inverter_spec mv s s' X Y :
  images_b s X -> images_b s' Y -> 1 <= zlen s <= 3 -> (forall n, In n s -> 0 < n) -> of_kind mv X Y ->
  exists Y', is_inversion mv X Y Y' /\
    forall n_jobs, 1 <= n_jobs -> inverter mv n_jobs X Y = Ok Y' /\ inverter mv n_jobs X Y' = Ok Y.
Proof.
  intros HX HY HL HS HK. destruct mv as [|[]|q], Y as [Y|Y]; cbn [of_kind] in HK; try (destruct X; contradiction).
  - destruct X as [X|X]; [|contradiction]. exists (BBool (map (nmap negb) Y)). split; [apply Forall2_nmap|]. intros n_jobs HJ. unfold inverter, fit_inverter.
    rewrite (fit_shape_ok s X HX HL). cbn [bind]. unfold invert. rewrite !parallel_ok; try assumption; try (apply map_nmap_ne); try apply HY. cbn [bind]. split; [reflexivity|].
    rewrite nmap_inv; [reflexivity|]. apply negb_involutive.
  - destruct X as [X|X]; [contradiction|]. destruct (batch_max_ok s X HX HS) as [m [E HM]]. exists (BNum (map (nmap (fun v => (m - v)%Qc)) Y)).
    split; [exists m; split; [assumption|apply (Forall2_nmap (fun v => (m - v)%Qc))]|]. intros n_jobs HJ. unfold inverter, fit_inverter.
    rewrite (fit_shape_ok s X HX HL). cbn [bind]. rewrite E. cbn [bind]. unfold invert. rewrite !parallel_ok; try assumption; try (apply map_nmap_ne); try apply HY. cbn [bind]. split; [reflexivity|].
    rewrite nmap_inv; [reflexivity|]. intros v. ring.
  - exists (BBool (map (nmap negb) Y)). split; [destruct X; apply Forall2_nmap|]. intros n_jobs HJ. unfold inverter, fit_inverter.
    assert (EF : match X with BBool X => fit_shape X | BNum X => fit_shape X end = Ok s) by (destruct X; now apply fit_shape_ok). rewrite EF.
    cbn [bind]. unfold invert. rewrite !parallel_ok; try assumption; try (apply map_nmap_ne); try apply HY. cbn [bind]. split; [reflexivity|].
    rewrite nmap_inv; [reflexivity|]. apply negb_involutive.
  - exists (BNum (map (nmap (fun v => (q - v)%Qc)) Y)).
    split; [exists q; split; [destruct X; reflexivity|apply (Forall2_nmap (fun v => (q - v)%Qc))]|]. intros n_jobs HJ. unfold inverter, fit_inverter.
    assert (EF : match X with BBool X => fit_shape X | BNum X => fit_shape X end = Ok s) by (destruct X; now apply fit_shape_ok). rewrite EF.
    cbn [bind]. unfold invert. rewrite !parallel_ok; try assumption; try (apply map_nmap_ne); try apply HY. cbn [bind]. split; [reflexivity|].
    rewrite nmap_inv; [reflexivity|]. intros v. ring.
Qed.
(** Parameters and images of different kinds: a numeric max_value takes boolean pixels as 0 and 1;
    True asks of numeric pixels whether they are 0, and False negates them. *)
Definition kind_pixels {A B} (f : A -> B -> Prop) (Y : list (nd A)) (Y' : list (nd B)) : Prop :=
  Forall2 (fun y y' => nshape y' = nshape y /\ forall idx v, nget y idx = Some v -> exists w, nget y' idx = Some w /\ f v w) Y Y'.
Lemma kind_pixels_nmap {A B} (R : A -> B -> Prop) (f : A -> B) Y : (forall v, R v (f v)) -> kind_pixels R Y (map (nmap f) Y).
Proof.
  intros H. unfold kind_pixels. induction Y; constructor; [|assumption]. split; [reflexivity|]. intros idx v E. exists (f v). now rewrite at_nmap, E.
Qed.
Theorem inverter_mixed n_jobs s s' X :
  images_b s X -> 1 <= zlen s <= 3 -> 1 <= n_jobs ->
  (forall q Y, images s' Y -> exists Y', inverter (MVNum q) n_jobs X (BBool Y) = Ok (BNum Y') /\
     kind_pixels (fun v w => (v = true -> w = q - 1) /\ (v = false -> w = q))%Qc Y Y') /\
  (forall Y, images s' Y -> exists Y', inverter (MVBool true) n_jobs X (BNum Y) = Ok (BBool Y') /\
     kind_pixels (fun v w => w = true <-> v = 0%Qc) Y Y') /\
  (forall Y, images s' Y -> exists Y', inverter (MVBool false) n_jobs X (BNum Y) = Ok (BNum Y') /\
     kind_pixels (fun v w => w = (- v)%Qc) Y Y').
Proof.
  intros HX HL HJ. unfold inverter, fit_inverter. assert (EF : match X with BBool X => fit_shape X | BNum X => fit_shape X end = Ok s) by (destruct X; now apply fit_shape_ok).
  rewrite EF. cbn [bind invert]. repeat split; intros.
  - eexists. rewrite parallel_ok by (assumption || apply H). split; [reflexivity|]. apply kind_pixels_nmap. intros []; split; intros E; try discriminate E; cbn [bq]; ring.
  - eexists. rewrite parallel_ok by (assumption || apply H). split; [reflexivity|]. apply kind_pixels_nmap. intros v. apply Qceqb_eq.
  - eexists. rewrite parallel_ok by (assumption || apply H). split; [reflexivity|]. apply kind_pixels_nmap. intros v. ring.
Qed.
(** Finding: max_value=False is admissible and fails on boolean images. *)
Theorem inverter_false_refuted n_jobs s X Y :
  images_b s X -> 1 <= zlen s <= 3 -> Y <> [] -> inverter (MVBool false) n_jobs X (BBool Y) = Err TypeError.
Proof.
  intros HX HL HY. unfold inverter, fit_inverter. assert (EF : match X with BBool X => fit_shape X | BNum X => fit_shape X end = Ok s) by (destruct X; now apply fit_shape_ok).
  rewrite EF. cbn [bind invert]. now destruct Y.
Qed.

Theorem padder_spec {A} padding (value : A) n_jobs s s' X Y :
  1 <= n_jobs -> images s X -> 1 <= zlen s <= 3 -> images s' Y -> zlen s' = zlen s ->
  let p := match padding with Some p => p | None => map (fun _ => 1) s end in
  zlen p = zlen s -> (forall q, In q p -> 0 <= q) ->
  exists R, padder padding value n_jobs X Y = Ok R /\ Forall2 (fun y r => wf r /\ is_padded p value y r) Y R.
Proof.
  intros HJ HX HL HY ES p LP HP. eexists. split; [apply (padder_ok padding value n_jobs s s'); auto; destruct padding; auto|].
  destruct HY as [_ HY]. fold p. clear -HY ES LP HP. induction Y as [|y Y IH]; constructor.
  - destruct (HY y (or_introl eq_refl)) as [W E]. split; [now apply wf_pad|]. apply pad_ok; [rewrite E; lia|assumption].
  - apply IH. intros; apply HY; now right.
Qed.

(** ** C39: ImageToPointCloud: one point per activated pixel. *)
Theorem image_to_point_cloud_spec n_jobs s n m t X Y :
  1 <= n_jobs -> images s X -> 1 <= zlen s <= 3 -> images (n :: m :: t) Y ->
  exists R, image_to_point_cloud n_jobs X Y = Ok R /\
    Forall2 (fun y cloud => NoDup cloud /\
      forall pt, In pt cloud <->
        exists idx v, nget y idx = Some v /\ v <> 0 /\ pt = point_of_pixel (n :: m :: t) idx) Y R.
Proof.
  intros HJ HX HL HY. unfold image_to_point_cloud. rewrite (fit_shape_ok s X HX HL). cbn [bind].
  assert (C : forallb (fun x : nd Z => 2 <=? zlen (nshape x)) Y = true).
  { apply forallb_forall. intros y Hy. destruct HY as [_ HY]. destruct (HY y Hy) as [_ ->]. apply Z.leb_le. rewrite !zlen_cons. pose proof (zlen_nonneg t). lia. }
  rewrite C, parallel_ok; [|assumption|]; [|destruct HY as [HY _]; now destruct Y]. eexists. split; [reflexivity|]. rewrite map_map. destruct HY as [_ HY]. clear C.
  induction Y as [|y Y IH]; constructor; [|apply IH; intros; apply HY; now right]. destruct (HY y (or_introl eq_refl)) as [W E].
  rewrite <- E. apply (embed_ok n m t); assumption.
Qed.
(** Different pixels give different points. *)
Theorem pixels_to_points_injective s i j :
  inside s i = true -> inside s j = true -> 2 <= zlen s -> point_of_pixel s i = point_of_pixel s j -> i = j.
Proof.
  intros I J L E. destruct s as [|n [|m s]]; [change (zlen (@nil Z)) with 0 in L; lia|rewrite zlen_cons in L; change (zlen (@nil Z)) with 0 in L; lia|].
  destruct i as [|r [|c t]]; try discriminate; [cbn in I; now rewrite andb_false_r in I|]. destruct j as [|r' [|c' t']]; [discriminate|exfalso; cbn in J; now rewrite andb_false_r in J|].
  cbn [point_of_pixel] in E. assert (c = c') by congruence. assert (t = t') by congruence. assert (n - 1 - r = n - 1 - r') by congruence. subst. f_equal. lia.
Qed.

(** ** Examples *)
Definition ex_img : nd Z := Nd [3; 4] [0; 0; 0; 0;  0; 1; 0; 0;  0; 0; 0; 1].
Definition ex_img3 : nd Z := Nd [2; 2; 2] [1; 0; 0; 0; 0; 0; 0; 0].
Example ex_images : images [3; 4] [ex_img] /\ (forall y, In y [ex_img] -> binary y) /\ images [2; 2; 2] [ex_img3].
Proof.
  assert (W : wf ex_img) by (split; [intros n [<-|[<-|[]]]; lia|reflexivity]).
  assert (W3 : wf ex_img3) by (split; [intros n [<-|[<-|[<-|[]]]]; lia|reflexivity]).
  split; [split; [easy|]; intros x [<-|[]]; split; [assumption|reflexivity]|]. split; [|split; [easy|]; intros x [<-|[]]; split; [assumption|reflexivity]].
  intros y [<-|[]] idx v Hv. apply nget_In in Hv. cbn in Hv. repeat (destruct Hv as [<-|Hv]; [auto|]). destruct Hv.
Qed.
Example ex_dilation : dilation_filtration None 1 [ex_img] [ex_img] = Ok [Nd [3; 4] [2; 1; 2; 2;  1; 0; 1; 1;  2; 1; 1; 0]].
Proof. vm_compute. reflexivity. Qed.
Example ex_dilation3 : dilation_filtration (Some 2) 1 [ex_img3] [ex_img3] = Ok [Nd [2; 2; 2] [0; 1; 1; 2; 1; 2; 2; 6]].
Proof. vm_compute. reflexivity. Qed.
Example ex_signed : signed_distance_filtration None 1 [ex_img] [ex_img] = Ok [Nd [3; 4] [-2; -1; -2; -2;  -1; 0; -1; -1;  -2; -1; -1; 0]].
Proof. vm_compute. reflexivity. Qed.
Example ex_cloud : image_to_point_cloud 1 [ex_img] [ex_img] = Ok [[[1; 1]; [3; 0]]].
Proof. vm_compute. reflexivity. Qed.
Example ex_pad : padder (Some [1; 0]) 7 1 [ex_img] [ex_img] =
  Ok [Nd [5; 4] [7; 7; 7; 7; 0; 0; 0; 0;  0; 1; 0; 0;  0; 0; 0; 1; 7; 7; 7; 7]].
Proof. vm_compute. reflexivity. Qed.
Example ex_invert : inverter MVNone 1 (BBool [Nd [1; 2] [true; false]]) (BBool [Nd [1; 2] [true; true]]) = Ok (BBool [Nd [1; 2] [false; false]]).
Proof. vm_compute. reflexivity. Qed.
Example ex_binarize : binarizer (qz 1 / qz 2)%Qc 1 [Nd [1; 3] [0; qz 3; qz 4]%Qc] [Nd [1; 3] [0; qz 2; qz 3]%Qc] = Ok [Nd [1; 3] [false; false; true]].
Proof. vm_compute. reflexivity. Qed.

Print Assumptions dilation_filtration_spec.
Print Assumptions dilation_filtration_exact.
Print Assumptions erosion_filtration_spec.
Print Assumptions erosion_is_dual.
Print Assumptions signed_distance_filtration_spec.
Print Assumptions signed_distance_sign.
Print Assumptions binarizer_spec.
Print Assumptions binarizer_monotone.
Print Assumptions binarizer_monotone_refuted.
Print Assumptions inverter_spec.
Print Assumptions inverter_false_refuted.
Print Assumptions inverter_mixed.
Print Assumptions padder_spec.
Print Assumptions image_to_point_cloud_spec.
Print Assumptions pixels_to_points_injective.
