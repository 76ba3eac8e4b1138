(** Theorems about the vectorisations: C20, C21, C23, C26, C30, C31. *)
From Coq Require Import Permutation Sorted.
From Verif Require Import Np NpFacts Fl FlFacts DiagTypes DiagModel DiagSpec DiagProofs DiagProofs2
  VecModel VecSpec SliceFacts VecProofs VecProofs2 VecProofs3 VecProofs4.
Open Scope Z_scope.

(** ** C20: BettiCurve.  Fitting on X gives grids [g]; the value for sample y,
    dimension q and grid value s is the number of points of y in dimension q
    with birth <= s < death, whatever the number of jobs (C26). *)
Theorem betti_curve_spec n_bins X :
  1 <= n_bins -> trainable X ->
  exists g, fitted_grids n_bins X g /\
    forall n_jobs Y, 1 <= n_jobs -> transformable (map pq (hd [] X)) Y ->
    betti_curve n_bins n_jobs X Y =
    Ok (map (fun y => map (fun e =>
          map (fun s => alive_count s (points_of (fst e) y)) (fst (snd e))) g) Y).
Proof. exact (betti_curve_ok n_bins X). Qed.

(** C20, C26, C31: Betti curves depend neither on the number of jobs, nor on the
    order of the points, nor on diagonal points. *)
Theorem betti_curve_ignores_diagonal n_bins n_jobs n_jobs' X Y Y' :
  1 <= n_bins -> 1 <= n_jobs -> 1 <= n_jobs' -> trainable X ->
  transformable (map pq (hd [] X)) Y -> transformable (map pq (hd [] X)) Y' ->
  Forall2 (fun y y' => forall q, same_off_diagonal (points_of q y) (points_of q y')) Y Y' ->
  betti_curve n_bins n_jobs X Y = betti_curve n_bins n_jobs' X Y'.
Proof. exact (betti_curve_same n_bins n_jobs n_jobs' X Y Y'). Qed.

(** ** C21: PersistenceLandscape. *)
Lemma landscape_rows {S} (g : list (fl * S)) (f : fl * S -> Z -> list Qc) L : 0 <= L ->
  zlen (concat (map (fun e => tabZ L (f e)) g)) = zlen g * L /\
  forall j e k, Znth g j = Some e -> 0 <= k < L ->
    Znth (concat (map (fun e => tabZ L (f e)) g)) (j * L + k) = Some (f e k).
Proof.
  intros HL. assert (U : forall r, In r (map (fun e => tabZ L (f e)) g) -> zlen r = L).
  { intros r Hr. apply in_map_iff in Hr. destruct Hr as [e [<- _]]. now apply zlen_tabZ. }
  split; [rewrite (zlen_concat_uniform _ L U); now rewrite zlen_map|]. intros j e k Hj Hk.
  rewrite (Znth_concat_uniform _ L j k (tabZ L (f e)) U); [now apply Znth_tabZ| |].
  - rewrite Znth_map, Hj. reflexivity.
  - assumption.
Qed.

(** Row j * n_layers + k of the output of a sample is layer k of its j-th
    dimension: at each grid value t the k-th largest tent value. *)
Theorem persistence_landscape_spec partition n_layers n_bins X :
  is_partition partition -> 1 <= n_layers -> 1 <= n_bins -> trainable X ->
  exists g, fitted_grids n_bins X g /\
    forall n_jobs Y, 1 <= n_jobs -> transformable (map pq (hd [] X)) Y ->
    exists R, persistence_landscape partition n_layers n_bins n_jobs X Y = Ok R /\
      Forall2 (fun y L => has_shape (zlen g * n_layers) n_bins L /\
        forall j q s step k i t, Znth g j = Some (q, (s, step)) -> 0 <= k < n_layers ->
          Znth s i = Some t -> exists v, entry L (j * n_layers + k) i = Some v /\
            kth_largest (map (tent t) (points_of q y)) k v) Y R.
Proof.
  intros HP HL Hn HT. destruct (persistence_landscape_ok partition n_layers n_bins X HP HL Hn HT) as [g [HG E]].
  exists g. split; [assumption|]. intros n_jobs Y HJ HY. rewrite (E n_jobs Y HJ HY). eexists. split; [reflexivity|].
  clear HY. induction Y as [|y Y IH]; cbn [map]; constructor; [|exact IH].
  destruct (landscape_rows g (fun e k => map (fun s => layer (map (tent s) (points_of (fst e) y)) k) (fst (snd e))) n_layers ltac:(lia)) as [A B]. split.
  - split; [exact A|]. intros r Hr. apply in_concat in Hr. destruct Hr as [M [HM Hr]]. apply in_map_iff in HM. destruct HM as [[q [s step]] [<- He]].
    apply In_tabZ in Hr. destruct Hr as [k [_ <-]]. rewrite zlen_map. cbn [fst snd].
    destruct HG as [_ HV]. destruct (HV q s step He) as [lo [hi [_ [Ls _]]]]. exact Ls.
  - intros j q s step k i t Hj Hk Ht. unfold entry. rewrite (B j (q, (s, step)) k Hj Hk). cbn [fst snd].
    exists (layer (map (tent t) (points_of q y)) k). rewrite Znth_map, Ht. split; [reflexivity|]. apply layer_kth. lia.
Qed.

(** Layers are non-negative and decreasing, and determined by the multiset of
    points off the diagonal. *)
Theorem landscape_layers_decreasing (x : list (Qc * Qc)) (t : Qc) k v w :
  0 <= k -> kth_largest (map (tent t) x) k v -> kth_largest (map (tent t) x) (k + 1) w ->
  (0 <= w)%Qc /\ (w <= v)%Qc.
Proof.
  intros Hk. apply kth_largest_decreasing; [|assumption]. intros a Ha. apply in_map_iff in Ha. destruct Ha as [p [<- _]]. apply tent_nonneg.
Qed.
Theorem persistence_landscape_ignores_diagonal partition n_layers n_bins n_jobs n_jobs' X Y Y' :
  is_partition partition -> 1 <= n_layers -> 1 <= n_bins -> 1 <= n_jobs -> 1 <= n_jobs' -> trainable X ->
  transformable (map pq (hd [] X)) Y -> transformable (map pq (hd [] X)) Y' ->
  Forall2 (fun y y' => forall q, same_off_diagonal (points_of q y) (points_of q y')) Y Y' ->
  persistence_landscape partition n_layers n_bins n_jobs X Y =
  persistence_landscape partition n_layers n_bins n_jobs' X Y'.
Proof. exact (persistence_landscape_same partition n_layers n_bins n_jobs n_jobs' X Y Y'). Qed.

(** A partition exists: sorting. *)
Example partition_exists : is_partition (fun _ l => rev (sort_desc l)).
Proof.
  intros pos l. split; [rewrite <- Permutation_rev; apply sort_desc_perm|]. intros k _ Hk.
  set (S := sort_desc l). assert (L : zlen S = zlen l) by (unfold zlen, S; now rewrite (Permutation_length (sort_desc_perm l))).
  assert (D : forall i j a b, 0 <= i <= j -> Znth S i = Some a -> Znth S j = Some b -> (b <= a)%Qc).
  { intros i j a b Hij Ha Hb. destruct (Z.eq_dec i j) as [<-|]; [replace b with a by congruence; apply Qcle_refl|].
    pose proof (sort_desc_sorted l) as SS. fold S in SS. destruct (Znth_split _ _ _ Ha) as [l1 [l2 [E L1]]]. rewrite E in *.
    rewrite Znth_app2 in Hb by lia. rewrite Znth_cons in Hb by lia. apply Znth_In in Hb.
    clear - SS Hb. induction l1 as [|c l1 IH]; cbn [app] in SS; inversion SS as [|? ? S1 S2]; subst; [rewrite Forall_forall in S2|]; auto. }
  destruct (Znth_ex S (-1 - k)) as [v Hv]; [lia|]. exists v. split; [|split].
  - rewrite Znth_rev by lia. rewrite L. rewrite <- Hv. f_equal. lia.
  - intros i w Hi Hw. rewrite Znth_rev in Hw by lia. apply (D (-1 - k) (zlen S - 1 - i)); [lia|assumption|assumption].
  - intros i w Hi Hw. pose proof (Znth_Some_lt _ _ _ Hw) as Hb. rewrite zlen_rev in Hb. rewrite Znth_rev in Hw by lia. apply (D (zlen S - 1 - i) (-1 - k)); [lia|assumption|assumption].
Qed.

(** ** C23: HeatKernel. *)
Theorem heat_kernel_spec gauss sigma n_bins X :
  keeps_shape gauss -> 2 <= n_bins -> trainable X ->
  exists g, fitted_grids n_bins X g /\
    forall n_jobs Y, 1 <= n_jobs -> transformable (map pq (hd [] X)) Y ->
    exists R, heat_kernel gauss sigma n_bins n_jobs X Y = Ok R /\
      Forall2 (fun y ims => Forall2 (fun e im => exists lo hi step,
          Znth (fst (snd e)) 0 = Some lo /\ Znth (fst (snd e)) (n_bins - 1) = Some hi /\
          snd (snd e) = Fin step /\
          is_heat gauss lo hi n_bins step sigma (points_of (fst e) y) im) g ims) Y R.
Proof. exact (heat_kernel_ok gauss sigma n_bins X). Qed.

(** Each heat image is antisymmetric with respect to its diagonal (the line
    birth = death, from the lower left to the upper right corner). *)
Theorem heat_antisymmetric gauss lo hi n step sigma x H :
  0 <= n -> (0 <= step)%Qc -> keeps_shape gauss -> is_heat gauss lo hi n step sigma x H ->
  forall r c, 0 <= r < n -> 0 <= c < n ->
    exists v, entry H r c = Some v /\ entry H (n - 1 - c) (n - 1 - r) = Some (- v)%Qc.
Proof.
  intros Hn Hs HG [S [Z0 P]] r c Hr Hc. apply Qcle_lt_or_eq in Hs. destruct Hs as [Hs|Hs].
  - destruct (P Hs) as [ra [_ [_ F]]]. destruct (F r c Hr Hc) as [u [v [A [B C]]]].
    destruct (F (n - 1 - c) (n - 1 - r) ltac:(lia) ltac:(lia)) as [u' [v' [A' [B' C']]]]. cbv zeta in *.
    replace (n - 1 - (n - 1 - c)) with c in * by lia. eexists. split; [exact C|]. rewrite C'.
    assert (u' = v) by congruence. assert (v' = u) by congruence. subst. f_equal. field. intros E. rewrite E in Hs. qlra.
  - exists 0%Qc. rewrite !Z0 by (auto; lia). split; [reflexivity|]. f_equal.
Qed.

Theorem heat_kernel_ignores_diagonal gauss sigma n_bins n_jobs n_jobs' X Y Y' :
  keeps_shape gauss -> 2 <= n_bins -> 1 <= n_jobs -> 1 <= n_jobs' -> trainable X ->
  transformable (map pq (hd [] X)) Y -> transformable (map pq (hd [] X)) Y' ->
  Forall2 (fun y y' => forall q, same_off_diagonal (points_of q y) (points_of q y')) Y Y' ->
  heat_kernel gauss sigma n_bins n_jobs X Y = heat_kernel gauss sigma n_bins n_jobs' X Y'.
Proof. exact (heat_kernel_same gauss sigma n_bins n_jobs n_jobs' X Y Y'). Qed.

(** ** Persistence images. *)
Theorem persistence_image_spec gauss weight_function sigma n_bins X :
  keeps_shape gauss -> (forall l, zlen (weight_function l) = zlen l) -> 2 <= n_bins -> trainable X ->
  exists g, fitted_grids2 n_bins X g /\
    forall n_jobs Y, 1 <= n_jobs -> transformable (map pq (hd [] X)) Y ->
    exists R, persistence_image_transform gauss weight_function sigma n_bins n_jobs X Y = Ok R /\
      Forall2 (fun y ims => Forall2 (fun e im => exists lo0 hi0 lo1 hi1 step0 step1,
          Znth (fst (fst (snd e))) 0 = Some lo0 /\ Znth (fst (fst (snd e))) (n_bins - 1) = Some hi0 /\
          Znth (fst (snd (snd e))) 0 = Some lo1 /\ Znth (fst (snd (snd e))) (n_bins - 1) = Some hi1 /\
          snd (fst (snd e)) = Fin step0 /\ snd (snd (snd e)) = Fin step1 /\
          is_persistence_image gauss lo0 hi0 lo1 hi1 n_bins step0 step1 sigma
            (weight_function (fst (snd (snd e)))) (points_of (fst e) y) im) g ims) Y R.
Proof. exact (persistence_image_transform_ok gauss weight_function sigma n_bins X). Qed.

(** Persistence images do not depend on the number of jobs or the order of
    points; they ignore diagonal points if fitted on a collection containing a
    diagonal point of that dimension. *)
Theorem persistence_image_ignores_diagonal_partial gauss weight_function sigma n_bins n_jobs n_jobs' X Y Y' :
  keeps_shape gauss -> (forall l, zlen (weight_function l) = zlen l) ->
  2 <= n_bins -> 1 <= n_jobs -> 1 <= n_jobs' -> trainable X ->
  transformable (map pq (hd [] X)) Y -> transformable (map pq (hd [] X)) Y' ->
  Forall2 (fun y y' => forall q, Permutation (points_of q y) (points_of q y') \/
     (same_off_diagonal (points_of q y) (points_of q y') /\ lifetime_value q X 0%Qc)) Y Y' ->
  persistence_image_transform gauss weight_function sigma n_bins n_jobs X Y =
  persistence_image_transform gauss weight_function sigma n_bins n_jobs' X Y'.
Proof. exact (persistence_image_same gauss weight_function sigma n_bins n_jobs n_jobs' X Y Y'). Qed.

(** In general they do not (finding): a diagonal point is clamped to the
    smallest training lifetime and then counted. *)
Definition pq_ (b d q : Z) : pt := Pt (fz b) (fz d) (fz q).
Lemma ex_finite l : finite_points (map (map (fun t : Z * Z * Z => pq_ (fst (fst t)) (snd (fst t)) (snd t))) l) <->
  forall x t, In x l -> In t x -> fst (fst t) <= snd (fst t).
Proof.
  split.
  - intros H x t Hx Ht. destruct (H (map (fun t : Z * Z * Z => pq_ (fst (fst t)) (snd (fst t)) (snd t)) x) (pq_ (fst (fst t)) (snd (fst t)) (snd t))) as [b [d [E1 [E2 L]]]].
    { apply in_map_iff. eauto. } { apply in_map_iff. eauto. }
    unfold pq_ in E1, E2. cbn [pb pd] in E1, E2. rewrite fz_qz in E1, E2. assert (qz (fst (fst t)) = b) by congruence.
    assert (qz (snd (fst t)) = d) by congruence. subst. now apply qz_le.
  - intros H x p Hx Hp. apply in_map_iff in Hx. destruct Hx as [x' [<- Hx]]. apply in_map_iff in Hp. destruct Hp as [t [<- Ht]].
    exists (qz (fst (fst t))), (qz (snd (fst t))). split; [reflexivity|]. split; [reflexivity|]. apply qz_le. eauto.
Qed.

Definition ex_raw : list (list (Z * Z * Z)) :=
  [[(0, 1, 0); (1, 3, 0); (0, 2, 1)]; [(0, 2, 0); (0, 0, 0); (1, 1, 1)]].
Definition of_raw := map (map (fun t : Z * Z * Z => pq_ (fst (fst t)) (snd (fst t)) (snd t))).
Example ex_trainable : trainable (of_raw ex_raw).
Proof.
  split; [discriminate|]. split.
  - apply ex_finite. intros x t [<-|[<-|[]]] H; repeat (destruct H as [<-|H]; [cbn; lia|]); destruct H.
  - intros q Hq. assert (E : q = fz 0 \/ q = fz 1).
    { cbn in Hq. destruct Hq as [<-|[<-|[<-|[]]]]; auto. }
    destruct E as [->| ->]; (split; [reflexivity|]); [exists 2|exists 1]; intros x [<-|[<-|[]]]; vm_compute; reflexivity.
Qed.
Example ex_transformable : transformable (map pq (hd [] (of_raw ex_raw))) (of_raw ex_raw).
Proof. split; [discriminate|]. split; [apply ex_trainable|]. intros q Hq. now apply ex_trainable. Qed.
Example ex_gauss_keeps_shape {P} : keeps_shape (fun (_ : P) im => im).
Proof. intros n p im H. exact H. Qed.
(** A padded and permuted version of the same collection. *)
Definition ex_raw' : list (list (Z * Z * Z)) :=
  [[(0, 2, 1); (1, 3, 0); (0, 1, 0); (5, 5, 0)]; [(0, 0, 0); (0, 2, 0); (7, 7, 1); (1, 1, 0)]].
Example ex_same : Forall2 (fun y y' => forall q, same_off_diagonal (points_of q y) (points_of q y')) (of_raw ex_raw) (of_raw ex_raw').
Proof.
  constructor; [|constructor; [|constructor]]; intros q; unfold same_off_diagonal, points_of, rows_of, of_raw, ex_raw, ex_raw', pq_; cbn -[feq fz Qceqb];
    assert (E : feq (fz 0) q = true -> feq (fz 1) q = true -> False)
      by (intros A B; apply feq_eq in A, B; assert (F : fz 0 = fz 1) by congruence; apply fz_inj in F; discriminate);
    destruct (feq (fz 0) q) eqn:E0, (feq (fz 1) q) eqn:E1; try (exfalso; auto; fail); vm_compute; try apply perm_swap; apply Permutation_refl.
Qed.

Theorem persistence_image_ignores_diagonal_refuted :
  let gauss (_ : Qc * Qc) (im : list (list Qc)) := im in
  let weights (l : list Qc) := l in
  let X := of_raw [[(0, 1, 0); (1, 3, 0)]] in
  let Y := of_raw [[(0, 1, 0)]] in let Y' := of_raw [[(0, 1, 0); (0, 0, 0)]] in
  trainable X /\
  Forall2 (fun y y' => forall q, same_off_diagonal (points_of q y) (points_of q y')) Y Y' /\
  exists R R', persistence_image_transform gauss weights 1%Qc 2 1 X Y = Ok R /\
    persistence_image_transform gauss weights 1%Qc 2 1 X Y' = Ok R' /\ R <> R'.
Proof.
  intros gauss weights X Y Y'. split; [|split].
  - split; [discriminate|]. split.
    + apply ex_finite. intros x t [<-|[]] H; repeat (destruct H as [<-|H]; [cbn; lia|]); destruct H.
    + intros q Hq. assert (E : q = fz 0) by (cbn in Hq; destruct Hq as [<-|[<-|[]]]; auto). subst q. split; [reflexivity|].
      exists 2. intros x [<-|[]]. vm_compute. reflexivity.
  - constructor; [|constructor]. intros q. unfold same_off_diagonal, points_of, rows_of, of_raw, pq_. cbn -[feq fz Qceqb].
    destruct (feq (fz 0) q) eqn:E0; vm_compute; apply Permutation_refl.
  - set (f := fun (r : res (list (list image))) => match r with Ok [[M]] => match entry M 1 0 with Some v => Qceqb v (qz 2) | None => false end | _ => false end).
    assert (A : f (persistence_image_transform gauss weights 1%Qc 2 1 X Y) = false) by (vm_compute; reflexivity).
    assert (B : f (persistence_image_transform gauss weights 1%Qc 2 1 X Y') = true) by (vm_compute; reflexivity).
    destruct (persistence_image_transform gauss weights 1%Qc 2 1 X Y) as [R|] eqn:E1; [|exfalso; revert E1; vm_compute; discriminate].
    destruct (persistence_image_transform gauss weights 1%Qc 2 1 X Y') as [R'|] eqn:E2; [|exfalso; revert E2; vm_compute; discriminate].
    exists R, R'. split; [reflexivity|]. split; [reflexivity|]. intros E. subst R'. congruence.
Qed.

(** ** C30: sampling grids. *)

(** _bin for the one-axis metrics: for every list of dimensions present in the
    first diagram. *)
Theorem bin_spec n_bins dims X :
  1 <= n_bins -> X <> [] -> dims <> [] -> finite_points X ->
  (forall q, In q dims -> balanced q X /\ rows_of q (hd [] X) <> []) ->
  exists g, bin n_bins dims X = Ok g /\
    Forall2 (fun q e => fst e = q /\
      grid_of (fun q => coordinate q X) dims n_bins q (fst (snd e)) (snd (snd e))) dims g.
Proof.
  intros Hn HX Hd HF H. destruct (bin_axes_ok false n_bins dims X Hn HX Hd HF H) as [b [E F]]. unfold bin. rewrite E. cbn [bind].
  eexists. split; [reflexivity|]. apply Forall2_map_right. eapply Forall2_mono; [|exact F]. cbn beta. intros q e [E1 [_ E2]].
  cbn [fst snd]. split; [assumption|]. now apply E2.
Qed.

(** _bin for persistence images: births on the first axis, lifetimes on the
    second. *)
Theorem bin_persistence_image_spec n_bins dims X :
  1 <= n_bins -> X <> [] -> dims <> [] -> finite_points X ->
  (forall q, In q dims -> balanced q X /\ rows_of q (hd [] X) <> []) ->
  exists g, bin_axes true n_bins dims X = Ok g /\
    Forall2 (fun q e => fst e = q /\
      grid_of (fun q => birth_value q X) dims n_bins q (fst (fst (snd e))) (snd (fst (snd e))) /\
      grid_of (fun q => lifetime_value q X) dims n_bins q (fst (snd (snd e))) (snd (snd (snd e)))) dims g.
Proof.
  intros Hn HX Hd HF H. destruct (bin_axes_ok true n_bins dims X Hn HX Hd HF H) as [b [E F]].
  exists b. split; [assumption|]. eapply Forall2_mono; [|exact F]. cbn beta. intros q e [E1 [E2 _]]. split; [assumption|]. now apply E2.
Qed.

(** Every training value lies inside the grid, whose values increase from its
    first to its last one. *)
Theorem grid_covers_training_values P dims n q s step v :
  2 <= n -> In q dims -> grid_of P dims n q s step -> P q v ->
  exists lo hi, Znth s 0 = Some lo /\ Znth s (n - 1) = Some hi /\ (lo <= v)%Qc /\ (v <= hi)%Qc /\
    forall i t, Znth s i = Some t -> (lo <= t)%Qc /\ (t <= hi)%Qc.
Proof.
  intros Hn Hq [lo [hi [[HL [m [HM HR]]] HG]]] Hv. pose proof HG as [Ls [Z0 [_ HG']]]. destruct (HG' ltac:(lia)) as [_ [Z1 Hi]].
  exists lo, hi. split; [assumption|]. split; [assumption|]. split; [now apply HL|].
  assert (Hlh : (lo <= hi)%Qc).
  { destruct HL as [HL1 HL2], HM as [HM1 HM2]. destruct HR as [[_ ->]|[_ [_ HR]]]; [now apply HL2|]. apply HR. exists q. auto. }
  split.
  - destruct HR as [[_ ->]|[_ [_ HR]]]; [now apply HM|]. apply HR. exists q. auto.
  - intros i t Ht. pose proof (Znth_Some_lt _ _ _ Ht) as Hb. rewrite Hi in Ht by lia. assert (Et : (lo + qz i * ((hi - lo) / qz (n - 1)))%Qc = t) by congruence.
    pose proof (step_sign lo hi n _ Hn Hlh eq_refl) as Hs. set (st := ((hi - lo) / qz (n - 1))%Qc) in *.
    assert (Eh : (lo + qz (n - 1) * st = hi)%Qc).
    { unfold st. field. intros F. rewrite <- qz_0 in F. apply qz_inj in F. lia. }
    assert (H0 : (0 <= qz i)%Qc) by (rewrite <- qz_0; apply qz_le; lia). assert (H1 : (qz i <= qz (n - 1))%Qc) by (apply qz_le; lia).
    clearbody st. split; qnra.
Qed.

(** A single bin has no step size: np.linspace returns NaN (finding: accepted by
    the parameter validation, n_bins >= 1). *)
Theorem single_bin_step_undefined dims X :
  X <> [] -> dims <> [] -> finite_points X ->
  (forall q, In q dims -> balanced q X /\ rows_of q (hd [] X) <> []) ->
  exists g, bin 1 dims X = Ok g /\ forall e, In e g -> snd (snd e) = NaN.
Proof.
  intros HX Hd HF H. destruct (bin_spec 1 dims X ltac:(lia) HX Hd HF H) as [g [E F]]. exists g. split; [assumption|].
  intros e He. destruct (In_Znth _ _ He) as [i [Hi Ei]]. pose proof (Forall2_zlen _ _ _ F). destruct (Znth_ex dims i) as [q Eq]; [lia|].
  destruct (Forall2_Znth _ _ _ i _ _ F Eq Ei) as [_ [lo [hi [_ [_ [_ [G _]]]]]]]. now apply G.
Qed.

(** Hypotheses of [bin_spec] on a concrete collection, and the grid. *)
Example bin_example :
  (forall q, In q [fz 0; fz 1] -> balanced q (of_raw ex_raw) /\ rows_of q (hd [] (of_raw ex_raw)) <> []) /\
  match bin 3 [fz 0; fz 1] (of_raw ex_raw) with
  | Ok [(_, (s0, st0)); (_, (s1, st1))] =>
      forallb (fun ab => Qceqb (fst ab) (snd ab)) (combine s0 [0; qz 3 / qz 2; qz 3]%Qc) &&
      forallb (fun ab => Qceqb (fst ab) (snd ab)) (combine s1 [0; 1; qz 2]%Qc) = true
  | _ => False
  end.
Proof.
  split; [|vm_compute; reflexivity]. intros q Hq. split; [apply ex_trainable; destruct Hq as [<-|[<-|[]]]; cbn; auto|].
  destruct Hq as [<-|[<-|[]]]; vm_compute; discriminate.
Qed.

(** ** C26: the shared "dimensions x slices" loop: for every batch function that
    works sample by sample and every number of jobs, also more jobs than
    samples, the result is the map over samples and dimensions. *)
Theorem parallel_loop_spec {V} (f : fl -> list (list (Qc * Qc)) -> res (list V))
  (h : fl -> list (Qc * Qc) -> V) X dims n_jobs :
  1 <= n_jobs -> X <> [] -> dims <> [] -> finite_points X -> (forall q, In q dims -> balanced q X) ->
  (forall q xs, f q xs = Ok (map (h q) xs)) ->
  vectorise f X dims n_jobs = Ok (map (fun x => map (fun q => h q (points_of q x)) dims) X).
Proof.
  intros HJ HX Hd HF HB H. rewrite (vectorise_ok f (fun q x => h q (to_q (rows_of q x)))); try assumption.
  - f_equal. apply map_ext_in. intros x Hx. apply map_ext. intros q. f_equal. now apply (points_of_to_q q X).
  - intros q xs _ _ _. rewrite H. now rewrite map_map.
Qed.

Print Assumptions betti_curve_spec.
Print Assumptions betti_curve_ignores_diagonal.
Print Assumptions persistence_landscape_spec.
Print Assumptions landscape_layers_decreasing.
Print Assumptions persistence_landscape_ignores_diagonal.
Print Assumptions heat_kernel_spec.
Print Assumptions heat_antisymmetric.
Print Assumptions heat_kernel_ignores_diagonal.
Print Assumptions persistence_image_spec.
Print Assumptions persistence_image_ignores_diagonal_partial.
Print Assumptions persistence_image_ignores_diagonal_refuted.
Print Assumptions bin_spec.
Print Assumptions bin_persistence_image_spec.
Print Assumptions grid_covers_training_values.
Print Assumptions single_bin_step_undefined.
Print Assumptions parallel_loop_spec.
