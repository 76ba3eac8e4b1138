(** Theorems for C91, continued: activating more pixels, neighbouring pixels, and
    examples. *)
From Coq Require Import Reals Lra Permutation.
From Verif Require Import Np NpFacts Nd NdFacts RNp RNormFacts FeatModel ImgModel ImgModel2 ImgSpec ImgSpec2 ImgProofs ImgProofs2 ImgProofs5 ImgThms ImgThms2 ImgSymSpec ImgSymThms ImgSymThms2 ImgSymThms3.
Open Scope Z_scope.

Lemma more_active_0 y y' p : wf y -> binary y -> more_active y y' -> nget y' p = Some 0 -> nget y p = Some 0.
Proof.
  intros W B [S M] H. destruct (at_Some y p W) as [v E]; [rewrite <- S; now apply at_inside in H|]. destruct (B p v E) as [->| ->]; [assumption|]. apply M in E. congruence.
Qed.
Lemma closest_1_mono y y' p d d' : more_active y y' -> closest y 1 p d -> closest y' 1 p d' -> d' <= d.
Proof. intros [_ M] [[j [E D]] _] [_ C]. specialize (C j (M j E)). lia. Qed.
Lemma closest_0_mono y y' p d d' : wf y -> binary y -> more_active y y' -> closest y 0 p d -> closest y' 0 p d' -> d <= d'.
Proof. intros W B M [_ C] [[j [E D]] _]. specialize (C j (more_active_0 y y' j W B M E)). lia. Qed.
Lemma none_1_mono y y' : more_active y y' -> none y' 1 -> none y 1.
Proof. intros [_ M] N j H. exact (N j (M j H)). Qed.
Lemma none_0_mono y y' : wf y -> binary y -> more_active y y' -> none y 0 -> none y' 0.
Proof. intros W B M N j H. exact (N j (more_active_0 y y' j W B M H)). Qed.
Lemma dilation_mono k m y y' p v v' : k <= m -> more_active y y' -> inside (nshape y) p = true ->
  is_dilation k m y p v -> is_dilation k m y' p v' -> v' <= v.
Proof.
  intros K M I [D1 N1] [D2 N2]. destruct (closest_or_none y' 1 p) as [N'|[d' [_ C']]]; [now right|now rewrite (proj1 M)| |].
  - rewrite (N1 (none_1_mono y y' M N')), (N2 N'). lia.
  - rewrite (D2 d' C'). destruct (closest_or_none y 1 p) as [N|[d [_ C]]]; [now right|assumption| |].
    + rewrite (N1 N). destruct (Z.leb_spec d' k); lia.
    + rewrite (D1 d C). pose proof (closest_1_mono y y' p d d' M C C'). destruct (Z.leb_spec d' k); destruct (Z.leb_spec d k); lia.
Qed.
Lemma erosion_mono k m y y' p v v' : k <= m -> wf y -> binary y -> more_active y y' -> inside (nshape y) p = true ->
  is_erosion k m y p v -> is_erosion k m y' p v' -> v <= v'.
Proof.
  intros K W B M I [D1 N1] [D2 N2]. destruct (closest_or_none y 0 p) as [N|[d [_ C]]]; [now left|assumption| |].
  - rewrite (N1 N), (N2 (none_0_mono y y' W B M N)). lia.
  - rewrite (D1 d C). destruct (closest_or_none y' 0 p) as [N'|[d' [_ C']]]; [now left|now rewrite (proj1 M)| |].
    + rewrite (N2 N'). destruct (Z.leb_spec d k); lia.
    + rewrite (D2 d' C'). pose proof (closest_0_mono y y' p d d' W B M C C'). destruct (Z.leb_spec d' k); destruct (Z.leb_spec d k); lia.
Qed.
Lemma signed_mono k m y y' p v v' : 0 <= k <= m -> 0 < m -> wf y -> wf y' -> binary y -> binary y' -> more_active y y' -> inside (nshape y) p = true ->
  is_signed_distance k m y p v -> is_signed_distance k m y' p v' -> v <= v'.
Proof.
  intros K HM W W' B B' M I P P'. destruct (at_Some y p W I) as [u Hu]. destruct (at_Some y' p W') as [u' Hu']; [now rewrite (proj1 M)|].
  pose proof (signed_distance_sign k m y p v ltac:(lia) HM W B I P) as [_ S0]. pose proof (signed_distance_sign k m y' p v' ltac:(lia) HM W' B' ltac:(now rewrite (proj1 M)) P') as [S1 _].
  destruct P as [P1 P0]. destruct P' as [P1' P0']. destruct (B p u Hu) as [->| ->].
  - destruct (B' p u' Hu') as [->| ->]; [|apply S0 in Hu; apply S1 in Hu'; lia].
    destruct (P0 Hu) as [D1 N1]. destruct (P0' Hu') as [D2 N2]. destruct (closest_or_none y' 1 p) as [N'|[d' [Hd' C']]]; [now right|now rewrite (proj1 M)| |].
    + rewrite (N1 (none_1_mono y y' M N')), (N2 N'). lia.
    + rewrite (D2 d' C'). destruct (closest_or_none y 1 p) as [N|[d [_ C]]]; [now right|assumption| |].
      * rewrite (N1 N). destruct (Z.leb_spec d' k); lia.
      * rewrite (D1 d C). pose proof (closest_1_mono y y' p d d' M C C'). destruct (Z.leb_spec d' k); destruct (Z.leb_spec d k); lia.
  - pose proof (proj2 M p Hu) as E. destruct (P1 Hu) as [D1 N1]. destruct (P1' E) as [D2 N2]. destruct (closest_or_none y 0 p) as [N|[d [_ C]]]; [now left|assumption| |].
    + rewrite (N1 N), (N2 (none_0_mono y y' W B M N)). lia.
    + rewrite (D1 d C). destruct (closest_or_none y' 0 p) as [N'|[d' [_ C']]]; [now left|now rewrite (proj1 M)| |].
      * rewrite (N2 N'). destruct (Z.leb_spec d k); lia.
      * rewrite (D2 d' C'). pose proof (closest_0_mono y y' p d d' W B M C C'). destruct (Z.leb_spec d' k); destruct (Z.leb_spec d k); lia.
Qed.
Lemma density_mono metric radius y y' p v v' : wf y -> wf y' -> binary y -> binary y' -> more_active y y' ->
  is_density metric radius y p v -> is_density metric radius y' p v' -> v <= v'.
Proof.
  intros W W' B B' [S M] H H'. apply density_sum in H. apply density_sum in H'. destruct H as [near [ND [HI ->]]]. destruct H' as [near' [ND' [HI' ->]]].
  rewrite (sum_perm (map (value_at y') near') (map (value_at y') near)).
  - assert (K : forall q, In q near -> inside (nshape y) q = true) by (intros q Hq; now apply HI). clear HI HI' ND. induction near as [|q near IH]; [cbn; lia|]. cbn [map fold_right].
    assert (J : inside (nshape y) q = true) by (apply K; now left). destruct (at_Some y q W J) as [u Hu]. destruct (at_Some y' q W') as [u' Hu']; [now rewrite S|].
    assert (E : value_at y q <= value_at y' q). { unfold value_at. rewrite Hu, Hu'. destruct (B q u Hu) as [->| ->]; [destruct (B' q u' Hu'); lia|]. apply M in Hu. assert (u' = 1) by congruence. lia. }
    assert (IH' := IH (fun r Hr => K r (or_intror Hr))). lia.
  - apply Permutation_map, NoDup_Permutation; try assumption. intros q. rewrite HI, HI', S. reflexivity.
Qed.
Lemma step_count_bounds n m : valid_iterations n -> 0 <= m -> 0 <= step_count n m <= m.
Proof. destruct n as [n|]; cbn [valid_iterations step_count]; lia. Qed.
Lemma total_size_pos s p : 1 <= zlen s -> inside s p = true -> 0 < total_size s.
Proof.
  intros L I. assert (NE : s <> []) by (intros ->; change (zlen (@nil Z)) with 0 in L; lia). pose proof (taxicab_bound s p p I I NE). rewrite taxicab_refl in H. lia.
Qed.
Lemma total_nonneg' (A : Type) s (X : list (nd A)) : images s X -> 0 <= total_size s.
Proof.
  intros [N H]. destruct X as [|x X]; [congruence|]. destruct (H x (or_introl eq_refl)) as [[W _] <-]. unfold total_size. clear -W. induction (nshape x) as [|n s IH]; [cbn; lia|]. cbn [fold_right].
  assert (0 <= n) by (apply W; now left). assert (0 <= fold_right Z.add 0 s) by (apply IH; intros k Hk; apply W; now right). lia.
Qed.
Lemma pixelwise_everywhere {A B} (Rel : A -> A -> Prop) s (P : nd B -> list Z -> A -> Prop) f Y Y' (Q : nd B -> nd B -> Prop) :
  images s Y -> images s Y' -> Forall2 Q Y Y' ->
  (forall y, In y Y -> pixelwise (P y) y (f y)) -> (forall y, In y Y' -> pixelwise (P y) y (f y)) ->
  (forall y y' p v v', In y Y -> In y' Y' -> Q y y' -> inside s p = true -> P y p v -> P y' p v' -> Rel v v') ->
  Forall2 (everywhere Rel) (map f Y) (map f Y').
Proof.
  intros [_ HY] [_ HY'] F H H' U. apply Forall2_map2. apply Forall2_In2 in F. eapply Forall2_mono; [|exact F]. intros y y' [Iy [Iy' M]].
  destruct (HY y Iy) as [_ S]. destruct (HY' y' Iy') as [_ S']. destruct (H y Iy) as [Sf V]. destruct (H' y' Iy') as [Sf' V']. split; [congruence|]. intros p I. rewrite Sf, S in I.
  destruct (V p) as [v [E Hv]]; [congruence|]. destruct (V' p) as [v' [E' Hv']]; [congruence|]. exists v, v'. split; [assumption|]. split; [assumption|]. now apply (U y y' p).
Qed.

(** ** C91: activating more pixels can only lower the dilation, height and radial
    values and only raise the erosion, signed distance and density values. *)
Theorem distance_filtrations_monotone n_iterations s X Y Y' n_jobs n_jobs' :
  images s X -> 1 <= zlen s <= 3 -> valid_iterations n_iterations ->
  images s Y -> images s Y' -> (forall y, In y Y -> binary y) -> (forall y, In y Y' -> binary y) ->
  1 <= n_jobs -> 1 <= n_jobs' -> Forall2 more_active Y Y' ->
  (exists R R', dilation_filtration n_iterations n_jobs X Y = Ok R /\ dilation_filtration n_iterations n_jobs' X Y' = Ok R' /\
     Forall2 (everywhere (fun v v' => v' <= v)) R R') /\
  (exists R R', erosion_filtration n_iterations n_jobs X Y = Ok R /\ erosion_filtration n_iterations n_jobs' X Y' = Ok R' /\
     Forall2 (everywhere (fun v v' => v <= v')) R R') /\
  (exists R R', signed_distance_filtration n_iterations n_jobs X Y = Ok R /\ signed_distance_filtration n_iterations n_jobs' X Y' = Ok R' /\
     Forall2 (everywhere (fun v v' => v <= v')) R R').
Proof.
  intros HX HL HV HY HY' HB HB' HJ HJ' F. pose proof (total_nonneg' Z s X HX) as M0. pose proof (step_count_bounds n_iterations _ HV M0) as K.
  assert (W : forall y, In y Y -> wf y /\ nshape y = s) by (intros; now apply HY). assert (W' : forall y, In y Y' -> wf y /\ nshape y = s) by (intros; now apply HY'). split; [|split].
  - destruct (dilation_filtration_spec n_iterations s X HX HL HV) as [f Hf]. destruct (Hf s Y n_jobs HY HB HJ) as [E Q]. destruct (Hf s Y' n_jobs' HY' HB' HJ') as [E' Q'].
    exists (map f Y), (map f Y'). split; [assumption|]. split; [assumption|]. eapply pixelwise_everywhere; [exact HY|exact HY'|exact F|exact Q|exact Q'|]. intros y y' p v v' Iy Iy' M I.
    apply dilation_mono; [lia|assumption|]. now rewrite (proj2 (W y Iy)).
  - destruct (erosion_filtration_spec n_iterations s X HX HL HV) as [f Hf]. destruct (Hf s Y n_jobs HY HJ HB) as [E Q]. destruct (Hf s Y' n_jobs' HY' HJ' HB') as [E' Q'].
    exists (map f Y), (map f Y'). split; [assumption|]. split; [assumption|]. eapply pixelwise_everywhere; [exact HY|exact HY'|exact F|exact Q|exact Q'|]. intros y y' p v v' Iy Iy' M I.
    apply erosion_mono; [lia|now apply W|auto|assumption|]. now rewrite (proj2 (W y Iy)).
  - destruct (signed_distance_filtration_spec n_iterations s X HX HL HV) as [f Hf]. destruct (Hf s Y n_jobs HY HB HJ) as [E Q]. destruct (Hf s Y' n_jobs' HY' HB' HJ') as [E' Q'].
    exists (map f Y), (map f Y'). split; [assumption|]. split; [assumption|]. eapply pixelwise_everywhere; [exact HY|exact HY'|exact F|exact Q|exact Q'|]. intros y y' p v v' Iy Iy' M I.
    apply signed_mono; auto; [exact (total_size_pos s p (proj1 HL) I)|now apply W|now apply W'|]. now rewrite (proj2 (W y Iy)).
Qed.
Theorem density_filtration_monotone metric radius s X Y Y' n_jobs n_jobs' :
  images s X -> 2 <= zlen s <= 3 -> (0 < radius)%R -> proper_metric metric radius ->
  images s Y -> images s Y' -> (forall y, In y Y -> binary y) -> (forall y, In y Y' -> binary y) ->
  1 <= n_jobs -> 1 <= n_jobs' -> Forall2 more_active Y Y' ->
  exists R R', density_filtration metric (Some radius) n_jobs X Y = Ok R /\ density_filtration metric (Some radius) n_jobs' X Y' = Ok R' /\
    Forall2 (everywhere (fun v v' => v <= v')) R R'.
Proof.
  intros HX HL HR PM HY HY' HB HB' HJ HJ' F. destruct (density_filtration_spec metric radius s X HX HL HR PM) as [f Hf].
  destruct (Hf s Y n_jobs HY eq_refl HJ) as [E Q]. destruct (Hf s Y' n_jobs' HY' eq_refl HJ') as [E' Q']. exists (map f Y), (map f Y'). split; [assumption|]. split; [assumption|].
  eapply pixelwise_everywhere; [exact HY|exact HY'|exact F|exact Q|exact Q'|]. intros y y' p v v' Iy Iy' M I. apply density_mono; auto; [now apply HY|now apply HY'].
Qed.
Theorem height_filtration_monotone direction s X Y Y' n_jobs n_jobs' :
  images s X -> 2 <= zlen s <= 3 -> (forall n, In n s -> 0 < n) ->
  let d := match direction with None => map (fun _ => 1%R) s | Some d => d end in
  zlen d = zlen s -> (exists a, In a d /\ a <> 0%R) ->
  images s Y -> images s Y' -> (forall y, In y Y -> binary y) ->
  1 <= n_jobs -> 1 <= n_jobs' -> Forall2 more_active Y Y' ->
  exists R R', height_filtration direction n_jobs X Y = Ok R /\ height_filtration direction n_jobs' X Y' = Ok R' /\
    Forall2 (everywhere (fun v v' => exists h h', v = Some h /\ v' = Some h' /\ (h' <= h)%R)) R R'.
Proof.
  intros HX HL HP d L N HY HY' HB HJ HJ' F. destruct (height_filtration_spec direction s X HX HL HP L N) as [u [M [f [HU [_ [HM Hf]]]]]].
  destruct (Hf Y n_jobs HY HJ) as [E Q]. destruct (Hf Y' n_jobs' HY' HJ') as [E' Q']. exists (map f Y), (map f Y'). split; [assumption|]. split; [assumption|].
  apply Forall2_map2. apply Forall2_In2 in F. eapply Forall2_mono; [|exact F]. intros y y' [Iy [Iy' [S MA]]].
  destruct (Q y Iy) as [Sf V]. destruct (Q' y' Iy') as [Sf' V']. split; [congruence|]. rewrite Sf. intros p I.
  destruct HY as [_ HY]. destruct HY' as [_ HY']. destruct (HY y Iy) as [W Sy]. destruct (HY' y' Iy') as [W' Sy'].
  destruct (at_Some y p W) as [v Hv]; [congruence|]. destruct (at_Some y' p W') as [v' Hv']; [congruence|].
  destruct (V p v Hv) as [V1 V0]. destruct (V' p v' Hv') as [V1' V0']. destruct (HB y Iy p v Hv) as [->| ->].
  - destruct (Z.eq_dec v' 0) as [->|K].
    + exists (Some M), (Some M). split; [auto|]. split; [auto|]. exists M, M. repeat split. lra.
    + destruct (V1' K) as [h [Eh Hh]]. exists (Some M), (Some h). split; [auto|]. split; [auto|]. exists M, h. repeat split. pose proof (HM p h I Hh). lra.
  - assert (v' = 1) by (apply MA in Hv; congruence). subst v'. destruct (V1 ltac:(lia)) as [h [Eh Hh]]. destruct (V1' ltac:(lia)) as [h' [Eh' Hh']].
    exists (Some h), (Some h'). split; [auto|]. split; [auto|]. exists h, h'. repeat split. pose proof (proj1 (proj2 (height_properties s u p h I Hh)) h' Hh'). lra.
Qed.
Theorem radial_filtration_monotone (metric : list R -> list R -> R) center radius s X Y Y' n_jobs n_jobs' :
  images s X -> 2 <= zlen s <= 3 -> (forall n, In n s -> 0 < n) ->
  (forall a b, (0 <= metric a b)%R) -> (match radius with Some r => (0 < r)%R | None => True end) ->
  zlen (match center with None => map (fun _ => 0) s | Some c => c end) = zlen s ->
  images s Y -> images s Y' -> (forall y, In y Y -> binary y) -> (forall y, In y Y' -> binary y) ->
  1 <= n_jobs -> 1 <= n_jobs' -> Forall2 more_active Y Y' ->
  exists R R', radial_filtration metric center radius n_jobs X Y = Ok R /\ radial_filtration metric center radius n_jobs' X Y' = Ok R' /\
    Forall2 (everywhere (fun v v' => exists h h', v = XFin h /\ v' = XFin h' /\ (h' <= h)%R)) R R'.
Proof.
  intros HX HL HP HM HR L HY HY' HB HB' HJ HJ' F. destruct (radial_filtration_spec metric center radius s X HX HL HP HM HR L) as [M [f [HM1 [_ Hf]]]]. cbv zeta in *.
  set (c := match center with None => map (fun _ => 0) s | Some c => c end) in *.
  destruct (Hf Y n_jobs HY HB HJ) as [E Q]. destruct (Hf Y' n_jobs' HY' HB' HJ') as [E' Q']. exists (map f Y), (map f Y'). split; [assumption|]. split; [assumption|].
  apply Forall2_map2. apply Forall2_In2 in F. eapply Forall2_mono; [|exact F]. intros y y' [Iy [Iy' [S MA]]].
  destruct (Q y Iy) as [Sf V]. destruct (Q' y' Iy') as [Sf' V']. split; [congruence|]. rewrite Sf. intros p I.
  destruct HY as [_ HY]. destruct HY' as [_ HY']. destruct (HY y Iy) as [W Sy]. destruct (HY' y' Iy') as [W' Sy'].
  destruct (at_Some y p W) as [v Hv]; [congruence|]. destruct (at_Some y' p W') as [v' Hv']; [congruence|].
  destruct (V p v Hv) as [V1 V0]. destruct (V' p v' Hv') as [V1' V0']. set (D := metric (map IZR c) (map IZR (coords p))) in *.
  assert (WD : within D radius \/ ~ within D radius). { destruct radius as [r|]; [|now left]. cbn [within]. destruct (Rle_dec D r); auto. }
  destruct WD as [WI|WO].
  - pose proof (HM1 p I WI) as KM. fold D in KM. destruct (HB' y' Iy' p v' Hv') as [->| ->].
    + destruct (HB y Iy p v Hv) as [->| ->]; [|apply MA in Hv; congruence]. exists (XFin M), (XFin M). split; [auto|]. split; [auto|]. exists M, M. repeat split. lra.
    + destruct (HB y Iy p v Hv) as [->| ->].
      * exists (XFin M), (XFin D). split; [auto|]. split; [auto|]. exists M, D. repeat split. lra.
      * exists (XFin D), (XFin D). split; [auto|]. split; [auto|]. exists D, D. repeat split. lra.
  - exists (XFin M), (XFin M). split; [auto|]. split; [auto|]. exists M, M. repeat split. lra.
Qed.

(** ** C91: with the default number of iterations, the dilation, erosion and
    signed distance values of neighbouring pixels differ by at most one. *)
Lemma taxicab_triangle a : forall b c, length a = length b -> length b = length c -> taxicab a c <= taxicab a b + taxicab b c.
Proof. induction a as [|i a IH]; intros [|j b] [|k c] L L'; try discriminate; cbn [taxicab]. cbn [length] in *. specialize (IH b c ltac:(lia) ltac:(lia)). lia. Qed.
Lemma taxicab_sym a : forall b, taxicab a b = taxicab b a.
Proof. induction a as [|i a IH]; intros [|j b]; cbn [taxicab]; try reflexivity. rewrite IH. lia. Qed.
Lemma closest_lipschitz y c p q d e : inside (nshape y) p = true -> inside (nshape y) q = true -> closest y c p d -> closest y c q e -> d <= e + taxicab p q.
Proof.
  intros I J [_ C] [[j [E D]] _]. specialize (C j E). apply at_inside in E. apply inside_length in I. apply inside_length in J. apply inside_length in E.
  pose proof (taxicab_triangle p q j ltac:(congruence) ltac:(congruence)). lia.
Qed.
Lemma closest_within s y c p d : 1 <= zlen s -> nshape y = s -> inside s p = true -> closest y c p d -> 0 <= d < total_size s.
Proof.
  intros L S I [[j [E <-]] _]. split; [apply taxicab_nonneg|]. apply taxicab_bound; [assumption|apply at_inside in E; congruence|]. intros ->. change (zlen (@nil Z)) with 0 in L. lia.
Qed.
Theorem neighbours_differ_by_one s X Y n_jobs :
  images s X -> 1 <= zlen s <= 3 -> images s Y -> (forall y, In y Y -> binary y) -> 1 <= n_jobs ->
  (exists R, dilation_filtration None n_jobs X Y = Ok R /\ Forall (neighbours_within_one s) R) /\
  (exists R, erosion_filtration None n_jobs X Y = Ok R /\ Forall (neighbours_within_one s) R) /\
  (exists R, signed_distance_filtration None n_jobs X Y = Ok R /\ Forall (neighbours_within_one s) R).
Proof.
  intros HX HL HY HB HJ. set (m := total_size s).
  assert (G : forall (P : nd Z -> list Z -> Z -> Prop) f, (forall y, In y Y -> pixelwise (P y) y (f y)) ->
    (forall y p q v w, In y Y -> nshape y = s -> inside s p = true -> inside s q = true -> taxicab p q = 1 -> P y p v -> P y q w -> Z.abs (v - w) <= 1) ->
    Forall (neighbours_within_one s) (map f Y)).
  { intros P f H U. apply Forall_forall. intros r Hr. apply in_map_iff in Hr. destruct Hr as [y [<- Iy]]. destruct (proj2 HY y Iy) as [_ S]. destruct (H y Iy) as [Sf V]. split; [congruence|].
    intros p q I J T. destruct (V p) as [v [E Hv]]; [congruence|]. destruct (V q) as [w [E' Hw]]; [congruence|]. exists v, w. split; [assumption|]. split; [assumption|]. now apply (U y p q). }
  assert (C1 : forall y c p q v w, c = 0 \/ c = 1 -> nshape y = s -> inside s p = true -> inside s q = true -> taxicab p q = 1 ->
    ((forall d, closest y c p d -> v = if d <=? m then d else m) /\ (none y c -> v = m)) ->
    ((forall d, closest y c q d -> w = if d <=? m then d else m) /\ (none y c -> w = m)) -> Z.abs (v - w) <= 1).
  { intros y c p q v w Hc S I J T [D1 N1] [D2 N2]. destruct (closest_or_none y c p Hc) as [N|[d [_ C]]]; [now rewrite S|rewrite (N1 N), (N2 N); lia|].
    destruct (closest_or_none y c q Hc) as [N|[e [_ C']]]; [now rewrite S|destruct C as [[j [E _]] _]; destruct (N j E)|]. rewrite (D1 d C), (D2 e C').
    pose proof (closest_within s y c p d ltac:(lia) S I C) as BD. pose proof (closest_within s y c q e ltac:(lia) S J C') as BE. rewrite <- S in I, J.
    pose proof (closest_lipschitz y c p q d e I J C C'). pose proof (closest_lipschitz y c q p e d J I C' C). rewrite (taxicab_sym q p) in *. fold m in BD, BE. destruct (Z.leb_spec d m); destruct (Z.leb_spec e m); lia. }
  split; [|split].
  - destruct (dilation_filtration_spec None s X HX HL Logic.I) as [f Hf]. destruct (Hf s Y n_jobs HY HB HJ) as [E Q]. exists (map f Y). split; [assumption|].
    eapply G; [exact Q|]. intros y p q v w _ S I J T. apply (C1 y 1 p q v w); auto.
  - destruct (erosion_filtration_spec None s X HX HL Logic.I) as [f Hf]. destruct (Hf s Y n_jobs HY HJ HB) as [E Q]. exists (map f Y). split; [assumption|].
    eapply G; [exact Q|]. intros y p q v w _ S I J T. apply (C1 y 0 p q v w); auto.
  - destruct (signed_distance_filtration_spec None s X HX HL Logic.I) as [f Hf]. destruct (Hf s Y n_jobs HY HB HJ) as [E Q]. exists (map f Y). split; [assumption|].
    eapply G; [exact Q|]. clear E Q f Hf. intros y p q v w Iy S I J T [P1 P0] [Q1 Q0]. cbn [step_count] in *. fold m in P1, P0, Q1, Q0.
    destruct (proj2 HY y Iy) as [W _]. destruct (at_Some y p W) as [a Ea]; [congruence|]. destruct (at_Some y q W) as [b Eb]; [congruence|].
    assert (MP : 0 < m) by (exact (total_size_pos s p (proj1 HL) I)).
    assert (X1 : forall p q v w, inside s p = true -> inside s q = true -> taxicab p q = 1 -> nget y p = Some 1 -> nget y q = Some 0 ->
      ((forall d, closest y 0 p d -> v = if d <=? m then d - 1 else m) /\ (none y 0 -> v = m)) ->
      ((forall d, closest y 1 q d -> w = if d <=? m then - d else - m) /\ (none y 1 -> w = - m)) -> Z.abs (v - w) <= 1).
    { clear -HL S HY MP. intros p q v w I J T Ep Eq [D1 N1] [D2 N2]. destruct (closest_or_none y 0 p) as [N|[d [_ C]]]; [now left|now rewrite S|destruct (N q Eq)|].
      destruct (closest_or_none y 1 q) as [N|[e [_ C']]]; [now right|now rewrite S|destruct (N p Ep)|]. rewrite (D1 d C), (D2 e C').
      assert (SQ : taxicab q p = 1) by (rewrite taxicab_sym; exact T).
      pose proof (closest_within s y 0 p d ltac:(lia) S I C) as BD. pose proof (closest_within s y 1 q e ltac:(lia) S J C') as BE.
      assert (Lp := inside_length _ _ I). assert (Lq := inside_length _ _ J).
      assert (d <> 0). { intros ->. destruct C as [[j [Ej Tj]] _]. assert (Lj := inside_length _ _ (at_inside _ _ _ Ej)). rewrite S in Lj. apply taxicab_0 in Tj; [subst j; congruence|congruence]. }
      assert (e <> 0). { intros ->. destruct C' as [[j [Ej Tj]] _]. assert (Lj := inside_length _ _ (at_inside _ _ _ Ej)). rewrite S in Lj. apply taxicab_0 in Tj; [subst j; congruence|congruence]. }
      destruct C as [_ C]. specialize (C q Eq). destruct C' as [_ C']. specialize (C' p Ep). fold m in BD, BE. destruct (Z.leb_spec d m); destruct (Z.leb_spec e m); lia. }
    destruct (HB y Iy p a Ea) as [->| ->]; destruct (HB y Iy q b Eb) as [->| ->].
    + destruct (P0 Ea) as [D1 N1]. destruct (Q0 Eb) as [D2 N2]. assert (K : Z.abs (- v - - w) <= 1); [|lia].
      apply (C1 y 1 p q (- v) (- w)); auto; (split; [intros d Hd; rewrite ?(D1 d Hd), ?(D2 d Hd); destruct (d <=? m); lia|intros N; rewrite ?(N1 N), ?(N2 N); lia]).
    + rewrite <- Z.abs_opp, Z.opp_sub_distr, Z.add_comm. rewrite Z.add_opp_r. apply (X1 q p w v); auto. now rewrite taxicab_sym.
    + apply (X1 p q v w); auto.
    + destruct (P1 Ea) as [D1 N1]. destruct (Q1 Eb) as [D2 N2].
      destruct (closest_or_none y 0 p) as [N|[d [_ C]]]; [now left|now rewrite S|rewrite (N1 N), (N2 N); lia|].
      destruct (closest_or_none y 0 q) as [N|[e [_ C']]]; [now left|now rewrite S|destruct C as [[j [E _]] _]; destruct (N j E)|]. rewrite (D1 d C), (D2 e C').
      pose proof (closest_within s y 0 p d ltac:(lia) S I C) as BD. pose proof (closest_within s y 0 q e ltac:(lia) S J C') as BE. rewrite <- S in I, J.
      pose proof (closest_lipschitz y 0 p q d e I J C C'). pose proof (closest_lipschitz y 0 q p e d J I C' C). rewrite (taxicab_sym q p) in *. fold m in BD, BE. destruct (Z.leb_spec d m); destruct (Z.leb_spec e m); lia.
Qed.

(** *** examples *)
Definition ex_left : nd Z := Nd [2; 3] [1; 0; 0; 0; 0; 0].
Definition ex_right : nd Z := Nd [2; 3] [0; 0; 1; 0; 0; 0].
Definition ex_more : nd Z := Nd [2; 3] [1; 0; 0; 0; 1; 0].
Example ex_moved : images [2; 3] [ex_left] /\ images [2; 3] [ex_right] /\ binary ex_left /\ Forall2 (moved [2; 3] [2; 3] (flip 1 [2; 3])) [ex_left] [ex_right] /\
  dilation_filtration None 1 [ex_left] [ex_left] = Ok [Nd [2; 3] [0; 1; 2; 1; 2; 3]] /\
  dilation_filtration None 2 [ex_left] [ex_right] = Ok [Nd [2; 3] [2; 1; 0; 3; 2; 1]].
Proof.
  split; [split; [discriminate|intros x [<-|[]]; split; [split; [intros n [<-|[<-|[]]]; lia|reflexivity]|reflexivity]]|].
  split; [split; [discriminate|intros x [<-|[]]; split; [split; [intros n [<-|[<-|[]]]; lia|reflexivity]|reflexivity]]|].
  split. { intros idx v H. pose proof (at_inside _ _ _ H) as I. apply In_indices in I. cbn in I. repeat (destruct I as [<-|I]; [vm_compute in H; injection H as <-; auto|]). destruct I. }
  split; [|split; vm_compute; reflexivity].
  constructor; [|constructor]. split; [reflexivity|]. split; [reflexivity|]. intros p I. apply In_indices in I. cbn in I. repeat (destruct I as [<-|I]; [vm_compute; eauto|]). destruct I.
Qed.
Example ex_more_active : Forall2 more_active [ex_left] [ex_more] /\
  dilation_filtration None 1 [ex_left] [ex_more] = Ok [Nd [2; 3] [0; 1; 2; 1; 0; 1]].
Proof.
  split; [|vm_compute; reflexivity]. constructor; [|constructor]. split; [reflexivity|]. intros p H. pose proof (at_inside _ _ _ H) as I. apply In_indices in I. cbn in I.
  repeat (destruct I as [<-|I]; [vm_compute in H |- *; congruence|]). destruct I.
Qed.
Example ex_transpose : grid_symmetry [2; 3] [3; 2] (reorder [1; 0]%nat) /\ reorder [1; 0]%nat [1; 2] = [2; 1].
Proof. split; [|reflexivity]. apply (axis_permutation_is_symmetry [1; 0]%nat [2; 3]). apply perm_swap. Qed.

Print Assumptions reflection_is_symmetry.
Print Assumptions axis_permutation_is_symmetry.
Print Assumptions distance_filtrations_symmetric.
Print Assumptions height_filtration_symmetric.
Print Assumptions height_reflected.
Print Assumptions height_axes_permuted.
Print Assumptions radial_filtration_symmetric.
Print Assumptions density_filtration_symmetric.
Print Assumptions minkowski_reflection.
Print Assumptions minkowski_axis_permutation.
Print Assumptions distance_filtrations_monotone.
Print Assumptions density_filtration_monotone.
Print Assumptions height_filtration_monotone.
Print Assumptions radial_filtration_monotone.
Print Assumptions neighbours_differ_by_one.
