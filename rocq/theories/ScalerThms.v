(** C80: Scaler with any metric and function. *)
From Coq Require Import Reals Lra Permutation.
From Verif Require Import Np NpFacts Fl FlFacts DiagTypes DiagModel DiagSpec DiagProofs
  VecModel VecSpec VecProofs VecProofs2 VecProofs3 VecProofs4 VecThms RNp RNormFacts
  MetricModel MetricSpec MetricProofs MetricProofs2 MetricProofs3 MetricProofs4 MetricProofs5 MetricThms StabThms EquivSpec EquivThms
  ScalerSpec ScalerModel.
Open Scope Z_scope.

(** *** np.max *)
Lemma fold_max t : forall u s, (forall o, In o t -> exists v, o = Some v) ->
  s = fold_left (fun acc o => match acc, o with Some u, Some v => Some (Rmax u v) | _, _ => None end) t (Some u) ->
  exists r, s = Some r /\ (In (Some r) (Some u :: t)) /\ (u <= r)%R /\ forall v, In (Some v) t -> (v <= r)%R.
Proof.
  induction t as [|o t IH]; intros u s H ->; cbn [fold_left].
  - exists u. repeat split; [now left|lra|intros v []].
  - destruct (H o (or_introl eq_refl)) as [v ->]. destruct (IH (Rmax u v) _ (fun o Ho => H o (or_intror Ho)) eq_refl) as [r [E [I1 [L1 L2]]]].
    exists r. split; [exact E|]. pose proof (Rmax_l u v). pose proof (Rmax_r u v). split; [|split; [lra|]].
    + destruct I1 as [I1|I1]; [|right; now right]. injection I1 as <-. unfold Rmax. destruct (Rle_dec u v); [right; now left|now left].
    + intros w [Hw|Hw]; [injection Hw as <-; lra|auto].
Qed.
Lemma np_max_table_spec A : concat A <> [] -> (forall row o, In row A -> In o row -> exists v, o = Some v) ->
  exists s, np_max_table A = Ok (Some s) /\ is_table_max A s.
Proof.
  intros N H. unfold np_max_table. destruct (concat A) as [|o t] eqn:E; [contradiction|].
  assert (HC : forall o, In o (concat A) -> exists v, o = Some v). { intros o' Ho. apply in_concat in Ho. destruct Ho as [row [Hr Ho]]. eauto. }
  rewrite E in HC. destruct (HC o (or_introl eq_refl)) as [u ->]. destruct (fold_max t u _ (fun o Ho => HC o (or_intror Ho)) eq_refl) as [r [-> [I1 [L1 L2]]]].
  exists r. split; [reflexivity|]. rewrite <- E in I1. split.
  - apply in_concat in I1. exact I1.
  - intros row o Hr Ho. destruct (H row o Hr Ho) as [v ->]. exists v. split; [reflexivity|]. assert (IC : In (Some v) (concat A)) by (apply in_concat; eauto).
    rewrite E in IC. destruct IC as [IC|IC]; [injection IC as <-; assumption|auto].
Qed.
Lemma np_max_homogeneous : homogeneous np_max_table.
Proof.
  intros k A Hk. unfold np_max_table. rewrite <- concat_map. destruct (concat A) as [|o t]; [reflexivity|]. cbn [map rmap]. f_equal.
  revert o. induction t as [|o' t IH]; intros o; cbn [map fold_left]; [reflexivity|]. rewrite <- IH. f_equal. destruct o, o'; cbn [option_map]; try reflexivity. f_equal. apply RmaxRmult. lra.
Qed.

(** *** fit *)
(** The scale is [function] of the amplitudes; with the default it is their
    maximum. *)
Theorem scaler_fit_spec E m n n_jobs f X :
  good_parameters E m n -> 1 <= n_jobs -> trainable X -> defined_on m (map pq (hd [] X)) X ->
  (m = Bottleneck -> has_points (map pq (hd [] X)) X) ->
  exists A, amplitude E m n n_jobs X X = Ok A /\
    scaler_fit E m n n_jobs (Some f) X = f A /\
    exists s, scaler_fit E m n n_jobs (Some np_max_table) X = Ok (Some s) /\ is_table_max A s /\ (0 <= s)%R.
Proof.
  intros HG HJ HX HD HP. destruct (amplitude_ok E m n X HG HX) as [g [_ [G [Hg [HE [_ H]]]]]]. specialize (H n_jobs X HJ (trainable_transformable X HX) HD HP).
  eexists. split; [exact H|]. unfold scaler_fit. rewrite H. cbn [bind]. split; [reflexivity|].
  destruct X as [|x X0] eqn:EX; [destruct HX as [HX _]; contradiction|]. rewrite <- EX in *. destruct g as [|e g0] eqn:EG; [contradiction|]. rewrite <- EG in *.
  destruct (np_max_table_spec (map (fun y => map (fun e => Some (aval E m e y)) g) X)) as [s [Es Hs]].
  - rewrite EX, EG. discriminate.
  - intros row o Hr Ho. apply in_map_iff in Hr. destruct Hr as [y [<- Hy]]. apply in_map_iff in Ho. destruct Ho as [e' [<- _]]. eauto.
  - exists s. split; [exact Es|]. split; [exact Hs|]. destruct Hs as [_ Hs].
    destruct (Hs (map (fun e => Some (aval E m e x)) g) (Some (aval E m e x))) as [v [Ev Hv]].
    + apply in_map_iff. exists x. split; [reflexivity|]. rewrite EX. now left.
    + rewrite EG. now left.
    + injection Ev as <-. assert (0 <= aval E m e x)%R; [|lra]. unfold aval. apply Rmult_le_pos; [apply norm_nonneg|]. apply (mfactor_ok E m n (snd e) HG). apply (HE (fst e)). rewrite EG. left. now destruct e.
Qed.
(** [function=None] passes validation, but fit raises TypeError. *)
Theorem scaler_function_none E m n n_jobs X :
  good_parameters E m n -> 1 <= n_jobs -> trainable X -> defined_on m (map pq (hd [] X)) X ->
  (m = Bottleneck -> has_points (map pq (hd [] X)) X) ->
  scaler_fit E m n n_jobs None X = Err TypeError.
Proof.
  intros HG HJ HX HD HP. destruct (amplitude_ok E m n X HG HX) as [g [_ [G [Hg [HE [_ H]]]]]]. specialize (H n_jobs X HJ (trainable_transformable X HX) HD HP).
  unfold scaler_fit. now rewrite H.
Qed.

(** *** transform *)
Theorem scaler_real_round_trip s Y : s <> 0%R ->
  exists Z, coordinates (fun v => v / s)%R Y Z /\
    scaler_transform_r (Some s) Y = map (map (fun p => (Some (fst (fst p)), Some (snd (fst p)), snd p))) Z /\
    scaler_inverse_transform_r (Some s) Z = map (map (fun p => (Some (fst (fst p)), Some (snd (fst p)), snd p))) Y.
Proof.
  intros Hs. exists (map (map (fun p => (fst (fst p) / s, snd (fst p) / s, snd p)%R)) Y). split; [|split].
  - apply Forall2_map_right, Forall2_same. intros y _. apply Forall2_map_right, Forall2_same. reflexivity.
  - unfold scaler_transform_r, scaled. rewrite map_map. apply map_ext. intros y. rewrite map_map. apply map_ext. intros p. cbn [fst snd rdiv]. now destruct (Req_EM_T s 0).
  - unfold scaler_inverse_transform_r, scaled. rewrite map_map. apply map_ext. intros y. rewrite map_map. apply map_ext. intros [[b d] q]. cbn [fst snd rmul]. repeat f_equal; field; assumption.
Qed.
(** A scale of 0 or NaN leaves no finite coordinate. *)
Theorem scaler_degenerate s Y : s = None \/ s = Some 0%R ->
  scaler_transform_r s Y = map (map (fun p => (None, None, snd p))) Y.
Proof.
  intros Hs. unfold scaler_transform_r, scaled. apply map_ext. intros y. apply map_ext. intros [[b d] q]. cbn [fst snd].
  destruct Hs as [->| ->]; cbn [rdiv]; [reflexivity|]. destruct (Req_EM_T 0 0); [reflexivity|lra].
Qed.
(** The scale is 0 exactly when all amplitudes are. *)
Theorem scaler_zero_scale E m n n_jobs X A :
  good_parameters E m n -> 1 <= n_jobs -> trainable X -> defined_on m (map pq (hd [] X)) X ->
  (m = Bottleneck -> has_points (map pq (hd [] X)) X) -> amplitude E m n n_jobs X X = Ok A ->
  (scaler_fit E m n n_jobs (Some np_max_table) X = Ok (Some 0%R) <->
   forall row o, In row A -> In o row -> o = Some 0%R).
Proof.
  intros HG HJ HX HD HP HA. destruct (scaler_fit_spec E m n n_jobs np_max_table X HG HJ HX HD HP) as [A' [EA [_ [s [Es [[Hm Hs] P]]]]]].
  rewrite HA in EA. injection EA as <-. rewrite Es. split.
  - intros E0. injection E0 as ->. intros row o Hr Ho. destruct (Hs row o Hr Ho) as [v [-> Hv]]. f_equal. apply Rle_antisym; [assumption|].
    destruct (amplitude_ok E m n X HG HX) as [g [_ [G [Hg [HE [_ H]]]]]]. specialize (H n_jobs X HJ (trainable_transformable X HX) HD HP). rewrite HA in H. injection H as ->.
    apply in_map_iff in Hr. destruct Hr as [y [<- Hy]]. apply in_map_iff in Ho. destruct Ho as [e [Ee He]]. injection Ee as <-. unfold aval.
    apply Rmult_le_pos; [apply norm_nonneg|]. apply (mfactor_ok E m n (snd e) HG). apply (HE (fst e)). now destruct e.
  - intros H0. destruct Hm as [row [Hr Ho]]. specialize (H0 row (Some s) Hr Ho). congruence.
Qed.

(** *** units *)
(** Fitting on diagrams in other units multiplies the scale by the factor of
    the metric. *)
Theorem scaler_units E m a c n n_jobs f X :
  (0 < a)%Qc -> good_parameters E m n -> 1 <= n_jobs -> trainable X -> defined_on m (map pq (hd [] X)) X ->
  (m = Bottleneck -> has_points (map pq (hd [] X)) X) -> homogeneous f ->
  scaler_fit E (in_units a m) n n_jobs (Some f) (map (affine a c) X) =
  rmap (option_map (fun s => value_factor (qr a) m * s)%R) (scaler_fit E m n n_jobs (Some f) X).
Proof.
  intros Ha HG HJ HX HD HP Hf. destruct (amplitude_affine E m a c n n_jobs X X Ha HG HJ HX (trainable_transformable X HX) HD HP) as [A [E1 E2]].
  unfold scaler_fit. rewrite E1, E2. cbn [bind]. apply Hf. rewrite value_factor_eq. pose proof (qa_pos a Ha) as Q. 
  assert (RP : forall v p, (0 < v)%R -> (0 < root v p)%R) by (intros v [p|] Hv; cbn; [unfold Rpower; apply exp_pos|lra]).
  apply Rmult_lt_0_compat.
  - destruct m; cbn; try lra; apply Rinv_0_lt_compat; nra.
  - destruct m; cbn; try lra; apply RP; try assumption; nra.
Qed.
(** Metrics whose amplitude is a length. *)
Definition length_metric (m : metric) : Prop :=
  match m with Bottleneck | Wasserstein _ | Landscape Pinf _ | Silhouette Pinf _ => True | _ => False end.
Lemma length_factor a m : length_metric m -> value_factor a m = a /\ forall b, in_units b m = m.
Proof. intros H. destruct m as [|p|p|p L|p sg|p sg wf|p pw]; cbn in *; try contradiction; try (split; reflexivity); destruct p; try contradiction; cbn; split; try reflexivity; ring. Qed.
(** With these metrics the transformed diagrams do not depend on the units. *)
Theorem scaler_unit_free E m a n n_jobs f X s :
  (0 < a)%Qc -> length_metric m -> good_parameters E m n -> 1 <= n_jobs -> trainable X -> defined_on m (map pq (hd [] X)) X ->
  (m = Bottleneck -> has_points (map pq (hd [] X)) X) -> homogeneous f ->
  scaler_fit E m n n_jobs (Some f) X = Ok s ->
  exists s', scaler_fit E m n n_jobs (Some f) (map (affine a 0) X) = Ok s' /\
    forall Y, scaler_transform_r s' (map (map (fun p => (qr a * fst (fst p), qr a * snd (fst p), snd p)%R)) Y) = scaler_transform_r s Y.
Proof.
  intros Ha HL HG HJ HX HD HP Hf HS. pose proof (scaler_units E m a 0 n n_jobs f X Ha HG HJ HX HD HP Hf) as HU. destruct (length_factor (qr a) m HL) as [E1 E2].
  rewrite E1, E2, HS in HU. cbn [rmap] in HU. eexists. split; [exact HU|]. intros Y. pose proof (qa_pos a Ha) as Q.
  unfold scaler_transform_r, scaled. rewrite map_map. apply map_ext. intros y. rewrite map_map. apply map_ext. intros [[b d] q]. cbn [fst snd].
  destruct s as [s|]; cbn [option_map rdiv]; [|reflexivity]. destruct (Req_EM_T s 0) as [->|N], (Req_EM_T (qr a * _) 0) as [N'|N'].
  - reflexivity.
  - exfalso. apply N'. ring.
  - exfalso. apply Rmult_integral in N'. destruct N'; [lra|contradiction].
  - assert (K : forall v, (qr a * v / (qr a * s) = v / s)%R) by (intros v; field; split; [assumption|lra]). now rewrite !K.
Qed.
(** Refitting on the scaled diagrams.  The new scale is 1 if the amplitude is a
    length; in general it is the factor of the metric times the old scale. *)
Theorem scaler_refit E m n n_jobs f X q :
  (0 < q)%Qc -> good_parameters E m n -> 1 <= n_jobs -> trainable X -> defined_on m (map pq (hd [] X)) X ->
  (m = Bottleneck -> has_points (map pq (hd [] X)) X) -> homogeneous f ->
  scaler_fit E m n n_jobs (Some f) X = Ok (Some (qr q)) ->
  scaler_fit E (in_units (/ q) m) n n_jobs (Some f) (map (affine (/ q) 0) X) = Ok (Some (value_factor (/ qr q) m * qr q)%R) /\
  (length_metric m -> scaler_fit E m n n_jobs (Some f) (map (affine (/ q) 0) X) = Ok (Some 1%R)).
Proof.
  intros Hq HG HJ HX HD HP Hf HS. pose proof (scaler_units E m (/ q) 0 n n_jobs f X (inv_pos q Hq) HG HJ HX HD HP Hf) as HU. rewrite HS in HU. cbn [rmap option_map] in HU.
  pose proof (qa_pos q Hq) as Q. assert (EI : qr (/ q) = (/ qr q)%R).
  { apply (Rmult_eq_reg_l (qr q)); [|lra]. rewrite Rinv_r by lra. rewrite <- qr_mul, Qcmult_inv_r by now apply pos_neq. apply (qr_qz 1). }
  rewrite EI in HU. split; [exact HU|]. intros HL. destruct (length_factor (/ qr q) m HL) as [E1 E2]. rewrite E1, E2 in HU. rewrite HU. do 2 f_equal. apply Rinv_l. lra.
Qed.

(** With a landscape or silhouette metric and finite p, scaled diagrams have a
    greatest amplitude of s^(-1/p), where s was the scale: not 1 unless s is. *)
Theorem scaler_landscape_refit E p L n n_jobs X q :
  (0 < q)%Qc -> good_parameters E (Landscape (Pfin p) L) n -> 1 <= n_jobs -> trainable X ->
  scaler_fit E (Landscape (Pfin p) L) n n_jobs (Some np_max_table) X = Ok (Some (qr q)) ->
  exists s, scaler_fit E (Landscape (Pfin p) L) n n_jobs (Some np_max_table) (map (affine (/ q) 0) X) = Ok (Some s) /\
    s = Rpower (/ qr q) (1 / p) /\ (s = 1%R <-> q = qz 1).
Proof.
  intros Hq HG HJ HX HS. destruct (scaler_refit E (Landscape (Pfin p) L) n n_jobs np_max_table X q Hq HG HJ HX I ltac:(discriminate) np_max_homogeneous HS) as [H _].
  cbn [in_units value_factor root] in H. pose proof (qa_pos q Hq) as Q. eexists. split; [exact H|].
  assert (ES : (/ qr q * Rpower (/ qr q) (1 / p) * qr q = Rpower (/ qr q) (1 / p))%R) by (field; lra).
  rewrite ES. split; [reflexivity|]. assert (Hp : (1 <= p)%R) by apply HG. split.
  - intros E1. apply qr_inj. rewrite qr_qz. unfold Rpower in E1. assert (E1' : exp (1 / p * ln (/ qr q)) = exp 0) by (rewrite E1; symmetry; apply exp_0). clear E1. rename E1' into E1. apply exp_inv in E1. apply Rmult_integral in E1. destruct E1 as [E1|E1].
    + unfold Rdiv in E1. rewrite Rmult_1_l in E1. exfalso. revert E1. apply Rinv_neq_0_compat. lra.
    + rewrite ln_Rinv in E1 by assumption. assert (E2 : ln (qr q) = ln 1) by (rewrite ln_1; lra). apply ln_inv in E2; [assumption|assumption|lra].
  - intros ->. rewrite qr_qz. rewrite Rinv_1. unfold Rpower. rewrite ln_1, Rmult_0_r. apply exp_0.
Qed.

(** Hypotheses met by concrete diagrams. *)
Example scaler_r_example :
  let X := of_raw ex_raw0 in
  good_parameters stab_E Bottleneck 3 /\ good_parameters stab_E (Landscape (Pfin 2) 2) 3 /\ length_metric Bottleneck /\ trainable X /\
  has_points (map pq (hd [] X)) X /\ homogeneous np_max_table /\
  exists q, (0 < q)%Qc /\ scaler_fit stab_E Bottleneck 3 1 (Some np_max_table) X = Ok (Some (qr q)).
Proof.
  cbn zeta. destruct ex_trivial as [T [_ Hp]]. destruct stab_example as [_ [HL _]].
  assert (HB : good_parameters stab_E Bottleneck 3) by (split; [exact I|cbn; lia]).
  split; [exact HB|]. split; [exact HL|]. split; [exact I|]. split; [exact T|]. split; [exact Hp|]. split; [exact np_max_homogeneous|].
  assert (HD : defined_on Bottleneck (map pq (hd [] (of_raw ex_raw0))) (of_raw ex_raw0)) by exact I.
  destruct (scaler_fit_spec stab_E Bottleneck 3 1 np_max_table _ HB ltac:(lia) T HD (fun _ => Hp)) as [A [EA [_ [s [Es [[[row [Hr Ho]] Hs] P]]]]]].
  destruct (amplitude_ok stab_E Bottleneck 3 _ HB T) as [g [_ [_ [_ [_ [HK H]]]]]]. specialize (H 1 _ ltac:(lia) (trainable_transformable _ T) HD (fun _ => Hp)).
  assert (EA2 : A = map (fun y => map (fun e => Some (aval stab_E Bottleneck e y)) g) (of_raw ex_raw0)) by congruence. subst A.
  assert (AB : forall e y, aval stab_E Bottleneck e y = rmax (map Rabs (half_lifetimes (points_of (fst e) y)))) by (intros e y; unfold aval; cbn [exponent norm mcurve mfactor]; unfold mfactor; ring).
  apply in_map_iff in Hr. destruct Hr as [y [<- Hy]]. apply in_map_iff in Ho. destruct Ho as [e [Ee He]]. injection Ee as Ee. rewrite AB in Ee.
  assert (NE : half_lifetimes (points_of (fst e) y) <> []).
  { unfold half_lifetimes, points_of. specialize (Hp y (fst e) Hy ltac:(apply HK; now apply in_map)). destruct (rows_of (fst e) y); [contradiction|discriminate]. }
  assert (IA : In s (map Rabs (half_lifetimes (points_of (fst e) y)))).
  { rewrite <- Ee. apply rmax_attained; [intros F; apply map_eq_nil in F; contradiction|]. intros v Hv. apply in_map_iff in Hv. destruct Hv as [w [<- _]]. apply Rabs_pos. }
  assert (POS : (0 < s)%R).
  { assert (K0 : In (fz 0) (map fst g)) by (apply HK; cbn; now left). apply in_map_iff in K0. destruct K0 as [e0 [F0 H0]].
    destruct (Hs (map (fun e => Some (aval stab_E Bottleneck e (hd [] (of_raw ex_raw0)))) g) (Some (aval stab_E Bottleneck e0 (hd [] (of_raw ex_raw0))))) as [v [Ev Hv]].
    - apply in_map_iff. exists (hd [] (of_raw ex_raw0)). split; [reflexivity|]. cbn. now left.
    - apply in_map_iff. eauto.
    - injection Ev as <-. eapply Rlt_le_trans; [|exact Hv]. rewrite AB, F0. eapply Rlt_le_trans; [|apply rmax_ge; apply in_map; left; reflexivity].
      apply Rabs_pos_lt. intros F. rewrite <- qr_0 in F. apply qr_inj in F. vm_compute in F. discriminate. }
  apply in_map_iff in IA. destruct IA as [w [Ew Hw]]. apply in_map_iff in Hw. destruct Hw as [p0 [<- _]]. set (u := ((snd p0 - fst p0) / qz 2)%Qc) in *.
  destruct (Rcase_abs (qr u)) as [LT|GE].
  - exists (- u)%Qc. rewrite Rabs_left in Ew by assumption. rewrite <- qr_opp in Ew. split; [|now rewrite Es, Ew]. apply qr_lt_iff. rewrite Ew, qr_0. assumption.
  - exists u. rewrite Rabs_right in Ew by assumption. split; [|now rewrite Es, Ew]. apply qr_lt_iff. rewrite Ew, qr_0. assumption.
Qed.

Print Assumptions scaler_fit_spec.
Print Assumptions scaler_function_none.
Print Assumptions scaler_real_round_trip.
Print Assumptions scaler_degenerate.
Print Assumptions scaler_zero_scale.
Print Assumptions scaler_units.
Print Assumptions scaler_unit_free.
Print Assumptions scaler_refit.
Print Assumptions scaler_landscape_refit.
