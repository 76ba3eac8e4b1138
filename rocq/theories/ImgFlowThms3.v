(** C94, third part: features of reflected images. *)
From Coq Require Import Reals Permutation Lra.
From Verif Require ImgSymThms2.
From Verif Require Import PipeProofs Np NpFacts Fl FlFacts Nd NdFacts DiagTypes DiagModel DiagSpec DiagThms VecModel VecSpec RNp MetricSpec FeatModel FeatSpec
  HomModel HomSpec HomProofs HomThms ImgSpec ImgModel ImgProofs3 ImgProofs4 ImgSymSpec ImgSymThms ImgFlowSpec ImgFlowThms ImgFlowThms2.
Open Scope Z_scope.

(** Diagrams of finite points are accepted by all feature extractors. *)
Lemma collection_accepted {A} junk (dg : A -> backend) f reduced X R :
  X <> [] -> f_dims f <> [] -> NoDup (f_dims f) ->
  (forall x dim, In x X -> In dim (f_dims f) -> has_dimension (dg x) dim) ->
  (forall x dim p, In x X -> In dim (f_dims f) -> In p (nontrivial_rows reduced (f_inf f) (dg x) dim) -> exists b d, pb p = Fin b /\ pd p = Fin d) ->
  hom_transform junk dg f reduced X = Ok R ->
  trainable R /\ (forall dims, (forall q, In q dims -> exists d, In d (f_dims f) /\ q = fz d) -> transformable dims R) /\
  (forall q, In q (map pq (hd [] R)) -> exists d, In d (f_dims f) /\ q = fz d).
Proof.
  intros HX Hd HN HD HF ER. destruct (transform_ok junk dg f reduced X HX Hd HN HD) as (R0 & ER0 & HL & HM & HQ & HE). assert (R0 = R) as -> by congruence.
  assert (NR : R <> []) by (destruct R; [|easy]; destruct X; [easy|]; rewrite zlen_cons in HL; pose proof (zlen_nonneg X); cbn in HL; lia).
  assert (Hd0 : In (hd [] R) R) by (destruct R; [easy|now left]).
  assert (QR : forall r p, In r R -> In p r -> exists dim, In dim (f_dims f) /\ pq p = fz dim).
  { intros r p Ir Ip. apply In_Znth in Ir as (i & B & Hi). destruct (Znth_ex X i) as [x Hx]; [lia|]. exact (proj2 (HM _ _ _ Hx Hi) p Ip). }
  assert (FR : finite_points R).
  { intros r p Ir Ip. destruct (QR r p Ir Ip) as (dim & I & Eq). unfold hom_transform in ER.
    destruct (postprocess_rows_of_dimension junk (map dg X) (f_dims f) (f_inf f) reduced R) with (dim := dim) as (n & m & _ & P & Q); auto.
    { destruct X; easy. } { intros b e Ib. apply in_map_iff in Ib as (x & <- & Ix). auto. }
    rewrite !map_map in *. apply In_Znth in Ir as (i & B & Hi). destruct (Znth_ex X i) as [x Hx]; [lia|]. assert (Ix : In x X) by (eapply Znth_In; eauto).
    apply (f_equal (fun L => Znth L i)) in Q. rewrite !Znth_map, Hi, Hx in Q. cbn in Q. injection Q as Q.
    assert (Ip' : In p (rows_of (fz dim) r)) by (apply filter_In; split; auto; rewrite Eq, feq_fz; lia).
    rewrite Q in Ip'. unfold padded in Ip'. apply in_app_iff in Ip' as [Ip'|Ip'].
    - destruct (HF x dim p Ix I Ip') as (b & d & Eb & Ed). exists b, d. split; auto. split; auto.
      unfold nontrivial_rows in Ip'. apply filter_In in Ip' as [_ Hlt]. rewrite Eb, Ed in Hlt. cbn in Hlt. destruct (Qcltb_spec b d); [qlra|easy].
    - unfold diag_rows in Ip'. apply repeat_spec in Ip'. subst p. cbn [pb pd].
      assert (exists b, m = Fin b) as [b ->]; [|exists b, b; repeat split; qlra].
      destruct P as [[-> _]|[(x' & p & Ix' & Ip' & <-) _]]; [rewrite f0_fz, fz_qz; eauto|].
      apply in_map_iff in Ix' as (x0 & <- & Ix0). destruct (HF x0 dim p Ix0 I Ip') as (b & d & Eb & _). eauto. }
  assert (BR : forall q, balanced q R).
  { intro q. exists (zlen (rows_of q (hd [] R))). intros r Ir. assert (G : forall u v : diagram, map pq u = map pq v -> zlen (rows_of q u) = zlen (rows_of q v)).
    { induction u as [|a u IH]; intros [|b v] Em; cbn in Em; try easy. injection Em as E' Em. unfold rows_of. cbn [filter]. rewrite E'.
      destruct (feq (pq b) q); rewrite ?zlen_cons; fold (rows_of q u) (rows_of q v); rewrite (IH v Em); reflexivity. }
    apply G. now apply HQ. }
  assert (QH : forall q, In q (map pq (hd [] R)) -> exists d, In d (f_dims f) /\ q = fz d).
  { intros q I. apply in_map_iff in I as (p & <- & Ip). destruct (QR _ p Hd0 Ip) as (dim & I & Eq). eauto. }
  split; [|split]; auto.
  - split; [|split]; auto.
    + destruct (f_dims f) as [|d0 l] eqn:Ed; [easy|]. intro Z0. apply (HE (hd [] R) d0 Hd0); [now left|]. now rewrite Z0.
    + intros q I. split; auto. destruct (QH q I) as (d & _ & ->). now rewrite fz_qz.
  - intros dims _. split; [|split]; auto.
Qed.

Lemma cubical_rows_finite gudhi c reduced x dim p :
  wf x -> values_are_cells gudhi -> c_is_periodic c = false -> (exists q, f_inf (c_fit c) = Fin q) -> (forall v, In v (ndata x) -> exists q, v = Fin q) ->
  In p (nontrivial_rows reduced (f_inf (c_fit c)) (Tagged (gudhi (cubical_arguments c x))) dim) -> exists b d, pb p = Fin b /\ pd p = Fin d.
Proof.
  intros W HV Hp [q Eq] HF I. unfold nontrivial_rows in I. apply filter_In in I as [I _]. apply in_map_iff in I as ([b d] & <- & I). cbn [fst snd pb pd].
  assert (J : In (b, d) (backend_points (Tagged (gudhi (cubical_arguments c x))) dim)).
  { destruct (reduced && (dim =? 0)); auto. cbn [without_infinite_class] in I. destruct (backend_points (Tagged (gudhi (cubical_arguments c x))) dim); [destruct I|now right]. }
  cbn [backend_points] in J. apply in_map_iff in J as ([dim' bd] & E & J). cbn in E. subst bd. apply filter_In in J as [J _].
  unfold cubical_arguments in J. rewrite Hp in J. destruct (HV _ _ _ _ _ J) as [Hb Hd].
  assert (FF : forall v, v = PInf \/ In (Some v) (flatten_F x) -> exists r, finite_value (f_inf (c_fit c)) v = Fin r).
  { intros v [->|Iv]; [cbn; eauto|]. unfold flatten_F in Iv. apply in_map_iff in Iv as (idx & E & _). apply nget_In in E. destruct (HF v E) as [r ->]. cbn. eauto. }
  destruct (FF b Hb) as [b' Eb], (FF d Hd) as [d' Ed]. eauto.
Qed.

(** Features of the diagrams of images: trained on the diagrams of X and computed for
    those of Y, they are the same for the images reflected or with permuted axes. *)
Theorem image_features_symmetric :
  forall (junk : pt) gudhi dims infinity_values reduced s s' sigma X X' F F' Y Y' n_jobs n_jobs',
    grid_symmetry s s' sigma -> blind_to_orientation gudhi s s' sigma -> values_are_cells gudhi ->
    dims <> [] -> NoDup dims -> (forall d, In d dims -> 0 <= d) -> (forall v, infinity_values = Some v -> exists q, v = Fin q) ->
    ImgSpec.images s X -> ImgSpec.images s' X' -> passed_as s X F -> passed_as s' X' F' -> Forall2 (moved s s' sigma) X X' ->
    (forall x, In x X -> ndata x <> []) -> finite_pixels X ->
    ImgSpec.images s Y -> ImgSpec.images s' Y' -> Forall2 (moved s s' sigma) Y Y' -> finite_pixels Y ->
    1 <= n_jobs -> 1 <= n_jobs' ->
    exists c c' DX DX' DY DY',
      cubical_fit dims None infinity_values F = Ok c /\ cubical_fit dims None infinity_values F' = Ok c' /\
      cubical_transform junk gudhi c reduced X = Ok DX /\ cubical_transform junk gudhi c' reduced X' = Ok DX' /\
      cubical_transform junk gudhi c reduced Y = Ok DY /\ cubical_transform junk gudhi c' reduced Y' = Ok DY' /\
      (forall normalize fill, exists T, persistence_entropy normalize fill n_jobs DX DY = Ok T /\ persistence_entropy normalize fill n_jobs' DX' DY' = Ok T) /\
      (exists T, number_of_points n_jobs DX DY = Ok T /\ number_of_points n_jobs' DX' DY' = Ok T) /\
      (forall n_bins, 1 <= n_bins -> exists T, betti_curve n_bins n_jobs DX DY = Ok T /\ betti_curve n_bins n_jobs' DX' DY' = Ok T) /\
      (forall partition n_layers n_bins, is_partition partition -> 1 <= n_layers -> 1 <= n_bins ->
         exists T, persistence_landscape partition n_layers n_bins n_jobs DX DY = Ok T /\
                   persistence_landscape partition n_layers n_bins n_jobs' DX' DY' = Ok T).
Proof.
  intros junk gudhi dims inf reduced s s' sigma X X' F F' Y Y' n n' G HG HV Hd HN H0 Hinf HX HX' HF HF' M HNE HfX HY HY' MY HfY HJ HJ'.
  assert (Hnan : forall x v, In x X -> In v (ndata x) -> isnan v = false) by (intros x v I J; destruct (HfX x v I J) as [q ->]; reflexivity).
  destruct (cubical_diagrams_symmetric junk gudhi dims inf reduced s s' sigma X X' F F' G HG Hd HN H0 HX HX' HF HF' M HNE Hnan) as (c & c' & Ec & Ec' & K).
  destruct (K X X' HX HX' M) as (DX & DX' & EX & EX' & RX). destruct (K Y Y' HY HY' MY) as (DY & DY' & EY & EY' & RY).
  exists c, c', DX, DX', DY, DY'. do 6 (split; [assumption|]).
  assert (HP : has_pixels F /\ number_of_images F (zlen X)).
  { destruct HX as [NX _]. destruct HF as [->| ->]; cbn.
    - split; [split; auto|reflexivity].
    - split; [|eauto]. clear - NX HNE. destruct X as [|z Z]; [easy|]. cbn. pose proof (HNE z (or_introl eq_refl)). destruct (ndata z); easy. }
  destruct HP as [P1 P2]. assert (L1 : 1 <= zlen X) by (destruct HX as [NX _]; clear - NX; destruct X; [easy|]; rewrite zlen_cons; pose proof (zlen_nonneg X); lia).
  assert (Hn : forall v, pixel F v -> isnan v = false) by (intros v Hv; apply (passed_pixel s X F v HF) in Hv as (x & I & J); eauto).
  destruct (cubical_fit_spec dims None inf F (zlen X) Hd P2 L1 P1 Hn) as (c0 & Ec0 & Pc & Sc & Ic & _ & Nc). assert (c0 = c) as -> by congruence.
  assert (FI : exists q, f_inf (c_fit c) = Fin q).
  { destruct inf as [v|]; [rewrite Ic; now apply Hinf|]. destruct Ic as [A _]. apply (passed_pixel s X F _ HF) in A as (x & I & J). eauto. }
  assert (D1 : f_dims (c_fit c) <> []) by (intro E; rewrite E in Pc; symmetry in Pc; now apply Permutation_nil in Pc).
  assert (D2 : NoDup (f_dims (c_fit c))) by (eapply Permutation_NoDup; eassumption).
  assert (D3 : forall dim, In dim (f_dims (c_fit c)) -> 0 <= dim) by (intros dim I; apply H0; eapply Permutation_in; [symmetry; exact Pc|auto]).
  assert (CA : forall Z R, ImgSpec.images s Z -> finite_pixels Z -> cubical_transform junk gudhi c reduced Z = Ok R ->
    trainable R /\ (forall dims, (forall q, In q dims -> exists d, In d (f_dims (c_fit c)) /\ q = fz d) -> transformable dims R) /\
    (forall q, In q (map pq (hd [] R)) -> exists d, In d (f_dims (c_fit c)) /\ q = fz d)).
  { intros Z R [NZ HZ] HfZ EZ. unfold cubical_transform in EZ. eapply collection_accepted; eauto.
    - intros; split; [auto|exact I].
    - intros x dim p Ix _ Ip. eapply cubical_rows_finite; eauto. now apply HZ. }
  destruct (CA X DX HX HfX EX) as (T & _ & QX). destruct (CA Y DY HY HfY EY) as (_ & TY & _). specialize (TY (map pq (hd [] DX)) QX).
  destruct (features_ignore_row_order DX DX' DY DY' n n' RX RY T TY HJ HJ') as (E1 & E2 & E3 & E4).
  split; [|split; [|split]].
  - intros normalize fill. rewrite <- E1. destruct (FeatThms.entropy_map normalize fill DX T) as (d & _ & E). rewrite E by auto. eauto.
  - rewrite <- E2. destruct (FeatProofs.number_of_points_ok DX T) as (d & _ & E). rewrite E by auto. eauto.
  - intros b Hb. rewrite <- E3 by auto. destruct (VecThms.betti_curve_spec b DX Hb T) as (g & _ & E). rewrite E by auto. eauto.
  - intros part l b A B C. rewrite <- E4 by auto. destruct (VecThms.persistence_landscape_spec part l b DX A B C T) as (g & _ & E). destruct (E n DY HJ TY) as (R & -> & _). eauto.
Qed.

(** ** With a filtration first *)
Lemma moved_nmap {A B} (f : A -> B) s s' sigma X X' : Forall2 (moved s s' sigma) X X' -> Forall2 (moved s s' sigma) (map (nmap f) X) (map (nmap f) X').
Proof.
  intro F. induction F as [|x x' X X' (S & S' & K) F IH]; cbn; constructor; auto. split; auto. split; auto. intros p I. destruct (K p I) as (v & E & E').
  exists (f v). now rewrite !at_nmap, E, E'.
Qed.
Print Assumptions image_features_symmetric.
