(** Theorems for C90: transformers treat the samples of a collection one by one. *)
From Coq Require Import Reals Lra Permutation.
From Verif Require Import Np NpFacts Fl FlFacts DiagTypes DiagModel DiagSpec DiagProofs DiagProofs2
  VecModel VecSpec SliceFacts VecProofs VecProofs2 VecProofs3 VecProofs4 VecThms RNp RNormFacts
  MetricModel MetricSpec MetricProofs MetricProofs2 MetricProofs3 MetricProofs4 MetricProofs5 MetricThms
  FeatModel FeatSpec FeatProofs FeatProofs2 FeatThms BatchSpec.
Open Scope Z_scope.
Open Scope list_scope.

(** ** What it gives to the user *)
Lemma one_by_one_mapM {A B} (g : A -> res B) Y : one_by_one g Y = mapM g Y.
Proof. induction Y as [|y Y IH]; [reflexivity|]. cbn [one_by_one mapM]. rewrite IH. destruct (g y); [|reflexivity]. cbn [bind]. now destruct (mapM g Y). Qed.

(** Transforming a concatenation of batches, with whatever numbers of jobs, is transforming each
    batch. *)
Theorem batches_can_be_split {A B} (valid : list A -> Prop) (t : Z -> list A -> res (list B)) j j1 j2 Y1 Y2 :
  sample_by_sample valid t -> 1 <= j -> 1 <= j1 -> 1 <= j2 -> valid Y1 -> valid Y2 -> valid (Y1 ++ Y2) ->
  exists R1 R2, t j1 Y1 = Ok R1 /\ t j2 Y2 = Ok R2 /\ t j (Y1 ++ Y2) = Ok (R1 ++ R2).
Proof. intros [g H] ? ? ? ? ? ?. exists (map g Y1), (map g Y2). rewrite !H by assumption. now rewrite map_app. Qed.
(** Row i of the output is the output for sample i alone. *)
Theorem rows_are_single_outputs {A B} (valid : list A -> Prop) (t : Z -> list A -> res (list B)) j j1 Y i y :
  sample_by_sample valid t -> 1 <= j -> 1 <= j1 -> valid Y -> valid [y] -> Znth Y i = Some y ->
  exists R r, t j Y = Ok R /\ zlen R = zlen Y /\ Znth R i = Some r /\ t j1 [y] = Ok [r].
Proof.
  intros [g H] ? ? ? ? E. exists (map g Y), (g y). rewrite !H by assumption. split; [reflexivity|]. split; [apply zlen_map|]. split; [|reflexivity].
  now rewrite Znth_map, E.
Qed.
(** Reordering the samples reorders the rows. *)
Theorem rows_follow_samples {A B} (valid : list A -> Prop) (t : Z -> list A -> res (list B)) j j' Y Y' :
  sample_by_sample valid t -> 1 <= j -> 1 <= j' -> valid Y -> valid Y' -> Permutation Y Y' ->
  exists R R', t j Y = Ok R /\ t j' Y' = Ok R' /\ Permutation (combine Y R) (combine Y' R').
Proof.
  intros [g H] ? ? ? ? P. exists (map g Y), (map g Y'). rewrite !H by assumption. split; [reflexivity|]. split; [reflexivity|].
  assert (E : forall l, combine l (map g l) = map (fun y => (y, g y)) l) by (induction l as [|a l IH]; [reflexivity|]; cbn; now rewrite IH).
  rewrite !E. now apply Permutation_map.
Qed.
(** The same when samples can raise: a collection succeeds iff every sample does. *)
Theorem batches_can_be_split_or_raise {A B} (valid : list A -> Prop) (t : Z -> list A -> res (list B)) j j1 j2 Y1 Y2 R :
  sample_by_sample_or_raise valid t -> 1 <= j -> 1 <= j1 -> 1 <= j2 -> valid Y1 -> valid Y2 -> valid (Y1 ++ Y2) ->
  (t j (Y1 ++ Y2) = Ok R <-> exists R1 R2, t j1 Y1 = Ok R1 /\ t j2 Y2 = Ok R2 /\ R = R1 ++ R2).
Proof.
  intros [g H] ? ? ? ? ? ?. rewrite (H j), (H j1), (H j2) by assumption. rewrite (one_by_one_mapM g (Y1 ++ Y2)), (one_by_one_mapM g Y1), (one_by_one_mapM g Y2), mapM_app. split.
  - destruct (mapM g Y1) as [R1|]; [|discriminate]. cbn [bind]. destruct (mapM g Y2) as [R2|]; [|discriminate]. cbn [bind]. intros E. injection E as <-. exists R1, R2. auto.
  - intros [R1 [R2 [-> [-> ->]]]]. reflexivity.
Qed.
Theorem rows_are_single_outputs_or_raise {A B} (valid : list A -> Prop) (t : Z -> list A -> res (list B)) j j1 Y :
  sample_by_sample_or_raise valid t -> 1 <= j -> 1 <= j1 -> valid Y -> (forall y, In y Y -> valid [y]) ->
  (forall R, t j Y = Ok R <-> Forall2 (fun y r => t j1 [y] = Ok [r]) Y R) /\
  (forall e, t j Y = Err e -> exists y, In y Y /\ t j1 [y] = Err e).
Proof.
  intros [g H] Hj Hj1 HY HS. rewrite (H j Y) by assumption. rewrite one_by_one_mapM.
  assert (S : forall y, In y Y -> t j1 [y] = match g y with Ok r => Ok [r] | Err e => Err e end).
  { intros y Hy. rewrite (H j1 [y]) by auto. cbn [one_by_one]. now destruct (g y). }
  clear H HS HY. induction Y as [|y Y IH].
  - split; [|discriminate]. intros R. cbn [mapM]. split; [intros E; injection E as <-; constructor|inversion 1; reflexivity].
  - destruct IH as [IH1 IH2]; [intros; apply S; now right|]. pose proof (S y (or_introl eq_refl)) as Ey. cbn [mapM]. destruct (g y) as [r|e].
    + cbn [bind]. destruct (mapM g Y) as [R0|e].
      * cbn [bind]. split; [|discriminate]. intros R. split.
        -- intros E. injection E as <-. constructor; [assumption|now apply IH1].
        -- inversion 1; subst. f_equal. f_equal; [congruence|]. assert (E : Ok R0 = Ok l') by now apply IH1. congruence.
      * cbn [bind]. split.
        -- intros R. split; [discriminate|]. inversion 1; subst. assert (E : Err e = Ok l') by now apply IH1. discriminate.
        -- intros e' E. injection E as <-. destruct (IH2 e eq_refl) as [z [Hz Ez]]. exists z. split; [now right|assumption].
    + cbn [bind]. split.
      * intros R. split; [discriminate|]. inversion 1; subst. congruence.
      * intros e' E. injection E as <-. exists y. split; [now left|assumption].
Qed.

(** ** The transformers of persistence diagrams, fitted on X *)
Lemma heat_kernel_map gauss sigma n_bins X : keeps_shape gauss -> 2 <= n_bins -> trainable X ->
  exists f, forall n_jobs Y, 1 <= n_jobs -> transformable (map pq (hd [] X)) Y -> heat_kernel gauss sigma n_bins n_jobs X Y = Ok (map f Y).
Proof.
  intros HGa Hn HT. destruct (fit_one_axis n_bins X ltac:(lia) HT) as [g [E1 [E2 [Hg [HG HN]]]]].
  pose proof HG as [[HI HK] HV].
  set (Gf := fun (s : list Qc * fl) x => match snd s with Fin step => match heat gauss (fst s) step sigma x with Ok H => H | Err _ => [] end | _ => [] end).
  exists (fun y => map (fun e => Gf (snd e) (points_of (fst e) y)) g). intros n_jobs Y HJ HY. unfold heat_kernel. rewrite E1. cbn [bind]. rewrite E2. cbn [bind].
  apply (vectorise_dict (fun s batch => match snd s with Fin step => heats gauss batch (fst s) step sigma | _ => Err ValueError end) Gf); try assumption.
  - eapply transformable_ext; [|exact HY]. intros q. now rewrite HK.
  - intros q [s step] xs He _.
    destruct (grid_lo_hi (fun q => coordinate q X) (map fst g) n_bins q s step) as [lo [hi [st [-> [_ [_ [Hlh HGr]]]]]]]; [assumption| |now apply HV|].
    { exists q. split; [|reflexivity]. apply in_map_iff. exists (q, (s, step)). auto. }
    cbn [fst snd]. rewrite (heats_total gauss n_bins s st sigma HGa Hn lo hi Hlh HGr). reflexivity.
Qed.
Lemma persistence_image_map gauss wf sigma n_bins X : keeps_shape gauss -> (forall l, zlen (wf l) = zlen l) -> 2 <= n_bins -> trainable X ->
  exists f, forall n_jobs Y, 1 <= n_jobs -> transformable (map pq (hd [] X)) Y -> persistence_image_transform gauss wf sigma n_bins n_jobs X Y = Ok (map f Y).
Proof.
  intros HGa HW Hn HT. destruct (fit_two_axes n_bins X ltac:(lia) HT) as [g [E1 [E2 [Hg [HG HN]]]]].
  pose proof HG as [[HI HK] HV].
  set (Gf := fun (s : (list Qc * fl) * (list Qc * fl)) x => match snd (fst s), snd (snd s) with
      | Fin step0, Fin step1 => match persistence_image gauss (combine (fst (fst s)) (fst (snd s))) (step0, step1) sigma (wf (fst (snd s))) x with Ok H => H | Err _ => [] end
      | _, _ => [] end).
  exists (fun y => map (fun e => Gf (snd e) (points_of (fst e) y)) g). intros n_jobs Y HJ HY. unfold persistence_image_transform. rewrite E1. cbn [bind]. rewrite E2. cbn [bind].
  apply (vectorise_dict (fun s batch => match snd (fst s), snd (snd s) with
               | Fin step0, Fin step1 => persistence_images gauss batch (combine (fst (fst s)) (fst (snd s))) (step0, step1) sigma (wf (fst (snd s)))
               | _, _ => Err ValueError end) Gf); try assumption.
  - eapply transformable_ext; [|exact HY]. intros q. now rewrite HK.
  - intros q [[s0 step0] [s1 step1]] xs He _. assert (Hq : exists q', In q' (map fst g) /\ q' = q).
    { exists q. split; [|reflexivity]. apply in_map_iff. exists (q, ((s0, step0), (s1, step1))). auto. }
    destruct (HV _ _ _ _ _ He) as [A B].
    destruct (grid_lo_hi (fun q => birth_value q X) (map fst g) n_bins q _ _ Hn Hq A) as [lo0 [hi0 [st0 [-> [_ [_ [C0 D0]]]]]]].
    destruct (grid_lo_hi (fun q => lifetime_value q X) (map fst g) n_bins q _ _ Hn Hq B) as [lo1 [hi1 [st1 [-> [_ [_ [C1 D1]]]]]]].
    cbn [fst snd]. unfold persistence_images. apply mapM_Ok. intros x _.
    destruct (persistence_image_ok gauss lo0 hi0 lo1 hi1 n_bins s0 s1 st0 st1 sigma (wf s1) x HGa Hn C0 C1 D0 D1) as [H [E I]]; [rewrite HW; apply D1|].
    unfold Gf. cbn [fst snd]. now rewrite E.
Qed.

(** Valid collections: non-empty, finite points with birth at most death, and in each dimension of
    the training diagrams the same number of points in every sample. *)
Theorem curves_and_images_sample_by_sample n_bins X :
  1 <= n_bins -> trainable X ->
  let valid := transformable (map pq (hd [] X)) in
  sample_by_sample valid (fun j => betti_curve n_bins j X) /\
  (forall partition n_layers, is_partition partition -> 1 <= n_layers ->
     sample_by_sample valid (fun j => persistence_landscape partition n_layers n_bins j X)) /\
  (forall power, match power with Pfin a => (0 < a)%R | Pinf => True end ->
     sample_by_sample (fun Y => valid Y /\ defined_on (Silhouette Pinf power) (map pq (hd [] X)) Y)
       (fun j => silhouette_transform power n_bins j X)) /\
  (forall gauss sigma, keeps_shape gauss -> 2 <= n_bins ->
     sample_by_sample valid (fun j => heat_kernel gauss sigma n_bins j X)) /\
  (forall gauss weights sigma, keeps_shape gauss -> (forall l, zlen (weights l) = zlen l) -> 2 <= n_bins ->
     sample_by_sample valid (fun j => persistence_image_transform gauss weights sigma n_bins j X)).
Proof.
  intros Hn HT valid. split; [|split; [|split; [|split]]].
  - destruct (betti_curve_ok n_bins X Hn HT) as [g [_ H]]. eexists. intros j Y Hj HY. now apply H.
  - intros part nl HP HL. destruct (persistence_landscape_ok part nl n_bins X HP HL Hn HT) as [g [_ H]]. eexists. intros j Y Hj HY. now apply H.
  - intros power Hp. destruct (silhouette_transform_ok power n_bins X Hn Hp HT) as [g [_ H]]. eexists. intros j Y Hj [HY HD]. now apply H.
  - intros gauss sigma HG H2. destruct (heat_kernel_map gauss sigma n_bins X HG H2 HT) as [f H]. exists f. exact H.
  - intros gauss wf sigma HG HW H2. destruct (persistence_image_map gauss wf sigma n_bins X HG HW H2 HT) as [f H]. exists f. exact H.
Qed.
Theorem features_sample_by_sample X :
  trainable X ->
  let valid := transformable (map pq (hd [] X)) in
  (forall normalize fill, sample_by_sample valid (fun j => persistence_entropy normalize fill j X)) /\
  sample_by_sample valid (fun j => number_of_points j X) /\
  (forall t nc, valid_ncoef nc X ->
     sample_by_sample (fun Y => valid Y /\
         forall y q, In y Y -> In q (map pq (hd [] X)) -> off_diagonal (points_of q y) <> [])
       (fun _ => complex_polynomial t nc X)).
Proof.
  intros HT valid. split; [|split].
  - intros no fi. destruct (entropy_map no fi X HT) as [dims [_ H]]. eexists. intros j Y Hj HY. now apply H.
  - destruct (number_of_points_ok X HT) as [dims [_ H]]. eexists. intros j Y Hj HY. now apply H.
  - intros t nc HV. destruct (fit_valid nc X HT HV) as [g [E [Hg [HC [HK Hn]]]]]. eexists. intros j Y Hj [HY HO]. now apply (complex_polynomial_ok t nc X g).
Qed.
(** A row of distances is the list of distances to the training diagrams. *)
Theorem metrics_sample_by_sample E m n_bins X :
  trainable X ->
  let valid := fun Y => transformable (map pq (hd [] X)) Y /\ defined_on m (map pq (hd [] X)) Y in
  (good_parameters E m n_bins ->
     sample_by_sample (fun Y => valid Y /\ (m = Bottleneck -> has_points (map pq (hd [] X)) Y))
       (fun j => amplitude E m n_bins j X) /\
     forall order, sample_by_sample (fun Y => valid Y /\ (m = Bottleneck -> has_points (map pq (hd [] X)) Y))
       (fun j => amplitude_order E m order n_bins j X)) /\
  (vectorised m -> good_parameters E m n_bins -> defined_on m (map pq (hd [] X)) X ->
     sample_by_sample valid (fun j => pairwise_distance E m n_bins j X) /\
     forall order, sample_by_sample valid (fun j => pairwise_distance_order E m order n_bins j X)) /\
  (~ vectorised m -> 1 <= n_bins ->
     sample_by_sample valid (fun j => pairwise_distance E m n_bins j X) /\
     forall order, sample_by_sample valid (fun j => pairwise_distance_order E m order n_bins j X)).
Proof.
  intros HT valid. split; [|split].
  - intros HG. destruct (amplitude_ok E m n_bins X HG HT) as [g [_ [_ [_ [_ [_ H]]]]]]. split; [|intros o].
    + eexists. intros j Y Hj [[HY HD] HB]. now apply H.
    + eexists. intros j Y Hj [[HY HD] HB]. unfold amplitude_order. rewrite H by assumption. cbn [bind]. rewrite map_map. reflexivity.
  - intros HV HG HX. destruct (pairwise_distance_ok E m n_bins X HV HG HT HX) as [g [_ [_ [_ [_ [_ H]]]]]]. split; [|intros o].
    + eexists. intros j Y Hj [HY HD]. now apply H.
    + eexists. intros j Y Hj [HY HD]. unfold pairwise_distance_order. rewrite H by assumption. cbn [bind]. rewrite map_map. reflexivity.
  - intros HV Hn. destruct (pairwise_point_distance_spec E m n_bins X HV Hn HT) as [dims [_ H]]. split; [|intros o].
    + eexists. intros j Y Hj [HY HD]. now apply H.
    + eexists. intros j Y Hj [HY HD]. unfold pairwise_distance_order. rewrite H by assumption. cbn [bind]. rewrite map_map. reflexivity.
Qed.

(** ** Example: the hypotheses hold for the diagrams of VecThms. *)
Example ex_split : exists R1 R2,
  number_of_points 1 (of_raw ex_raw) (of_raw ex_raw) = Ok R1 /\ number_of_points 2 (of_raw ex_raw) (of_raw ex_raw) = Ok R2 /\
  number_of_points 3 (of_raw ex_raw) (of_raw ex_raw ++ of_raw ex_raw) = Ok (R1 ++ R2).
Proof.
  apply (batches_can_be_split (transformable (map pq (hd [] (of_raw ex_raw)))) (fun j => number_of_points j (of_raw ex_raw)) 3 1 2); try lia; try apply ex_transformable.
  - apply (features_sample_by_sample (of_raw ex_raw) ex_trainable).
  - destruct ex_transformable as [N [F B]]. split; [easy|]. split.
    + intros x p Hx. apply in_app_or in Hx. destruct Hx as [Hx|Hx]; exact (F x p Hx).
    + intros q Hq. destruct (B q Hq) as [n Hn]. exists n. intros x Hx. apply in_app_or in Hx. destruct Hx; auto.
Qed.

Print Assumptions batches_can_be_split.
Print Assumptions rows_are_single_outputs.
Print Assumptions rows_follow_samples.
Print Assumptions batches_can_be_split_or_raise.
Print Assumptions rows_are_single_outputs_or_raise.
Print Assumptions curves_and_images_sample_by_sample.
Print Assumptions features_sample_by_sample.
Print Assumptions metrics_sample_by_sample.
