(** C66: the number of false nearest neighbours. *)
From Coq Require Import Reals Lra.
From Verif Require Import Np NpFacts Fl RNp RNormFacts MetricSpec MetricProofs2 TSModel TSProofs TakensModel TakensSpec LocalThms2.
From Verif Require NdFacts.
Open Scope Z_scope.

(** ** Counting *)
Lemma counts_filter {A} (f : A -> bool) l : counts (fun k => exists x, Znth l k = Some x /\ f x = true) (zlen l) (zlen (filter f l)).
Proof.
  exists (filter (fun j => match Znth l j with Some x => f x | None => false end) (arange (zlen l))). split; [apply NoDup_filter, NoDup_arange|].
  split; [|symmetry; apply filter_index]. intros k. rewrite filter_In, In_arange. split; intros [H1 H2]; (split; [assumption|]).
  - destruct (Znth l k); [eauto|discriminate].
  - destruct H2 as [x [-> H2]]. assumption.
Qed.
Lemma counts_ext (P Q : Z -> Prop) n c : (forall k, 0 <= k < n -> (P k <-> Q k)) -> counts P n c -> counts Q n c.
Proof.
  intros H [l [N [I L]]]. exists l. split; [assumption|]. split; [|assumption]. intros k. rewrite I. split; intros [B K]; (split; [assumption|]); now apply (H k B).
Qed.
Theorem counts_unique P n c c' : counts P n c -> counts P n c' -> c = c'.
Proof.
  intros [l [N [I L]]] [l' [N' [I' L']]]. assert (zlen l <= zlen l') by (apply NoDup_incl_zlen; [assumption|]; intros k; rewrite I, I'; tauto).
  assert (zlen l' <= zlen l) by (apply NoDup_incl_zlen; [assumption|]; intros k; rewrite I, I'; tauto). lia.
Qed.
Lemma counts_range P n c : counts P n c -> 0 <= c <= Z.max 0 n.
Proof.
  intros [l [N [I L]]]. subst. split; [apply zlen_nonneg|]. assert (H : zlen l <= zlen (arange n)); [apply NoDup_incl_zlen; [assumption|]; intros k Hk; rewrite In_arange; now apply I|].
  unfold arange in H. rewrite zlen_tabZ_max in H. lia.
Qed.
Lemma counts_none P n c : counts P n c -> (forall k, 0 <= k < n -> ~ P k) -> c = 0.
Proof.
  intros [l [N [I L]]] H. subst. destruct l as [|k l]; [reflexivity|]. exfalso. assert (In k (k :: l)) as K by now left. apply I in K. now apply (H k).
Qed.

(** ** Slices and rolls *)
Lemma py_sub_neg {A} (l : list A) a m : 0 <= a -> 0 < m ->
  zlen (py_sub (Some a) (Some (- m)) l) = Z.max 0 (zlen l - m - a) /\
  forall i, 0 <= i < zlen l - m - a -> Znth (py_sub (Some a) (Some (- m)) l) i = Znth l (a + i).
Proof.
  intros Ha Hm. pose proof (zlen_nonneg l) as Hl. destruct (py_slice_spec l (Some a) (Some (- m)) 1 ltac:(lia)) as [_ [H1 H2]]. cbv zeta in H1, H2.
  assert (E1 : slice_start 1 (zlen l) (Some a) = Z.min a (zlen l)) by (unfold slice_start, clip_index; destruct (Z.ltb_spec a 0); simpl; lia).
  assert (E2 : slice_stop 1 (zlen l) (Some (- m)) = Z.max 0 (zlen l - m)) by (unfold slice_stop, clip_index; destruct (Z.ltb_spec (- m) 0); simpl; lia).
  assert (E3 : slice_count 1 (Z.min a (zlen l)) (Z.max 0 (zlen l - m)) = Z.max 0 (zlen l - m - a)).
  { unfold slice_count. simpl. destruct (Z.ltb_spec (Z.min a (zlen l)) (Z.max 0 (zlen l - m))); [rewrite Z.div_1_r|]; lia. }
  rewrite E1, E2, E3 in *. unfold py_sub. split; [assumption|]. intros i Hi. rewrite H2 by lia. f_equal. lia.
Qed.
Lemma py_sub_None {A} (l : list A) b : py_sub None b l = py_sub (Some 0) b l.
Proof.
  unfold py_sub, py_slice. replace (slice_start 1 (zlen l) (Some 0)) with (slice_start 1 (zlen l) None); [reflexivity|].
  unfold slice_start, clip_index. pose proof (zlen_nonneg l). simpl. lia.
Qed.
Lemma roll_spec {A} (l : list A) k : zlen (roll l k) = zlen l /\ forall i, 0 <= i < zlen l -> Znth (roll l k) i = Znth l ((i - k) mod zlen l).
Proof.
  unfold roll. apply (flat_map_Znth_ok l (fun i => (i - k) mod zlen l) (zlen l)); [|apply zlen_nonneg]. intros i Hi. apply Z.mod_pos_bound. lia.
Qed.
Lemma mapM_get_ok {A} (X : list A) idx : (forall i, In i idx -> 0 <= i < zlen X) ->
  exists r, mapM (py_get X) idx = Ok r /\ Forall2 (fun i x => Znth X i = Some x) idx r.
Proof.
  induction idx as [|i idx IH]; intros H; [exists []; split; [reflexivity|constructor]|]. destruct (Znth_ex X i) as [x Hx]; [apply H; now left|].
  destruct IH as [r [E F]]; [intros; apply H; now right|]. exists (x :: r). cbn [mapM]. rewrite (py_get_in X i x) by (try (apply H; now left); assumption). cbn [bind]. rewrite E.
  split; [reflexivity|]. now constructor.
Qed.

Lemma std_spec X : X <> [] -> deviation X (std X).
Proof.
  intros N. unfold deviation, std. change rsum with total. split; [apply sqrt_pos|]. apply sqrt_sqrt. unfold Rdiv. apply Rmult_le_pos.
  - change total with rsum. apply rsum_nonneg. intros x Hx. apply in_map_iff in Hx. destruct Hx as [y [<- _]]. apply Rle_0_sqr.
  - assert (0 < zlen X). { destruct X; [easy|]. rewrite zlen_cons. pose proof (zlen_nonneg X). lia. } apply IZR_lt in H. left. now apply Rinv_0_lt_compat.
Qed.
Lemma deviation_unique X s s' : deviation X s -> deviation X s' -> s = s'.
Proof. intros [P E] [P' E']. rewrite <- E' in E. apply Rsqr_inj; assumption. Qed.

Section Fnn.
Variable nn : list (list R) -> list (R * Z).
(** The embedded series. *)
Definition embedded (X : list R) (t d s n : Z) (W : list (list R)) : Prop :=
  zlen W = n /\ forall i, 0 <= i < n -> exists w, Znth W i = Some w /\ is_delay_vector X (zlen X - t * (d - 1) - 1 - (n - 1 - i) * s) t d w.

(** At least two delay vectors are needed. *)
Theorem false_neighbors_short X t d s : 1 <= t -> 1 <= d -> 1 <= s -> zlen X < t * (d - 1) + 1 + s ->
  false_nearest_neighbors nn X t d s = Err ValueError.
Proof.
  intros Ht Hd Hs H. unfold false_nearest_neighbors. destruct (Z_lt_le_dec (zlen X) (t * (d - 1) + 1)) as [G|G].
  - rewrite tde_err by lia. reflexivity.
  - destruct (tde_ok X t d s true Ht Hd Hs G) as [W [E [L _]]]. rewrite E. cbn [bind]. unfold kneighbors2.
    rewrite Z.div_small in L by lia. rewrite L. reflexivity.
Qed.

(** The exact number: position k counts iff the ratio of |X[n - n' + k + d t] - X[j]| to the distance
    of vector k and its neighbour exceeds 10, where n' is the number of vectors and j the index of
    the neighbour of vector k + d t. *)
Theorem false_neighbors_spec X t d s : 1 <= t -> 1 <= d -> 1 <= s -> t * (d - 1) + 1 + s <= zlen X ->
  exists W, embedded X t d s ((zlen X - t * (d - 1) - 1) / s + 1) W /\
    ((zlen (nn W) = zlen W /\ forall x j, In (x, j) (nn W) -> 0 <= j < zlen W) ->
     exists c, false_nearest_neighbors nn X t d s = Ok c /\
       forall sd, deviation X sd ->
       counts (fun k => exists dist i dist' j a b,
                 Znth (nn W) k = Some (dist, i) /\ Znth (nn W) (k + d * t) = Some (dist', j) /\
                 Znth X (zlen X - zlen W + k + d * t) = Some a /\ Znth X j = Some b /\
                 dist <> 0%R /\ (10 < Rabs (a - b) / dist)%R /\ (dist < 2 * sd)%R)
              (zlen W - d * t) c).
Proof.
  intros Ht Hd Hs Hn. set (n := zlen X) in *. destruct (tde_ok X t d s true Ht Hd Hs) as [W [E [L H]]]; [fold n; lia|]. fold n in L. exists W.
  assert (Q : 1 <= (n - t * (d - 1) - 1) / s) by (apply Z.div_le_lower_bound; lia).
  assert (Q' : (n - t * (d - 1) - 1) / s <= n - t * (d - 1) - 1) by (apply Z.div_le_upper_bound; nia).
  assert (Q2 : (n - t * (d - 1) - 1) / s * s <= n - t * (d - 1) - 1) by (pose proof (Z.mul_div_le (n - t * (d - 1) - 1) s ltac:(lia)); lia).
  split.
  - split; [assumption|]. intros i Hi. rewrite <- L in Hi. destruct (H i Hi) as [w [Hw [Lw Hv]]]. exists w. split; [assumption|]. split; [assumption|]. intros j Hj. rewrite (Hv j Hj). fold n. rewrite L in *.
    set (q := (n - t * (d - 1) - 1) / s) in *.
    replace (n - 1 - (q + 1 - 1 - i) * s - (d - 1 - j) * t) with (n - t * (d - 1) - 1 - (q + 1 - 1 - i) * s + j * t) by ring. split; [reflexivity|].
    destruct (Znth_ex X (n - t * (d - 1) - 1 - (q + 1 - 1 - i) * s + j * t)) as [x ->]; [fold n; nia|discriminate].
  - intros [LN IN]. unfold false_nearest_neighbors. rewrite E. cbn [bind]. unfold kneighbors2. destruct (Z.ltb_spec (zlen W) 2) as [G|_]; [lia|]. cbn [bind].
    assert (LW : zlen W <= n) by nia.
    destruct (mapM_get_ok X (map snd (nn W))) as [B [EB FB]].
    { intros j Hj. apply in_map_iff in Hj. destruct Hj as [[x j'] [<- Hj]]. specialize (IN x j' Hj). cbn [snd]. fold n. lia. }
    rewrite EB. cbn [bind]. eexists. split; [reflexivity|]. intros sd SD. rewrite (deviation_unique X sd (std X) SD); [|apply std_spec; intros ->; cbn in Hn; nia].
    assert (LB : zlen B = zlen W) by (rewrite <- (Forall2_zlen _ _ _ FB), zlen_map; assumption).
    replace (- d * t) with (- (d * t)) by ring. set (m := d * t) in *. assert (Hm : 0 < m) by (unfold m; nia). fold n.
    destruct (py_sub_neg (map fst (nn W)) 0 m ltac:(lia) Hm) as [L1 H1]. rewrite <- py_sub_None in L1, H1. rewrite zlen_map, LN in L1, H1.
    destruct (roll_spec X (- m)) as [LR HR]. fold n in LR, HR.
    destruct (py_sub_neg (roll X (- m)) (n - zlen W) m ltac:(lia) Hm) as [L2 H2]. rewrite LR in L2, H2.
    destruct (roll_spec B (- m)) as [LR' HR']. rewrite LB in LR', HR'.
    destruct (py_sub_neg (roll B (- m)) 0 m ltac:(lia) Hm) as [L3 H3]. rewrite <- py_sub_None in L3, H3. rewrite LR' in L3, H3.
    set (D := py_sub None (Some (- m)) (map fst (nn W))) in *. set (XR := py_sub (Some (n - zlen W)) (Some (- m)) (roll X (- m))) in *. set (BR := py_sub None (Some (- m)) (roll B (- m))) in *.
    set (diff := map (fun ab => Rabs (fst ab - snd ab)) (combine XR BR)). set (ratio := map _ (combine diff D)). set (f := fun rd : R * R => _ && _).
    assert (Ld : zlen diff = zlen D) by (unfold diff; rewrite zlen_map, NdFacts.zlen_combine; lia).
    assert (Lr : zlen ratio = zlen D) by (unfold ratio; rewrite zlen_map, NdFacts.zlen_combine; lia).
    assert (Lc : zlen (combine ratio D) = zlen D) by (rewrite NdFacts.zlen_combine; lia).
    pose proof (counts_filter f (combine ratio D)) as C. rewrite Lc, L1 in C.
    assert (C' : counts (fun k => exists x, Znth (combine ratio D) k = Some x /\ f x = true) (zlen W - m) (zlen (filter f (combine ratio D)))).
    { destruct C as [l [N [I LL]]]. exists l. split; [assumption|]. split; [|assumption]. intros k. rewrite I. split; intros [K1 K2]; (split; [lia|assumption]). }
    revert C'. apply counts_ext. intros k Hk.
    destruct (Znth_ex (nn W) k) as [[dist i] Hnk]; [lia|]. destruct (Znth_ex (nn W) (k + m)) as [[dist' j] Hnm]; [lia|].
    assert (ED : Znth D k = Some dist) by (rewrite H1 by lia; rewrite Znth_map; replace (0 + k) with k by lia; rewrite Hnk; reflexivity).
    destruct (Znth_ex X (n - zlen W + k + m)) as [a Ha]; [fold n; lia|].
    assert (EX : Znth XR k = Some a).
    { rewrite H2 by lia. rewrite HR by lia. rewrite Z.mod_small by lia. rewrite <- Ha. f_equal. lia. }
    assert (Hj : 0 <= j < zlen W) by (eapply IN; eapply Znth_In; eassumption).
    destruct (Znth_ex X j) as [b Hb]; [fold n; lia|].
    assert (EB' : Znth B (k + m) = Some b).
    { destruct (Znth_ex B (k + m)) as [b' Hb']; [lia|]. assert (EJ : Znth (map snd (nn W)) (k + m) = Some j) by (rewrite Znth_map, Hnm; reflexivity).
      pose proof (Forall2_Znth _ _ _ _ _ _ FB EJ Hb') as K. cbn in K. congruence. }
    assert (EBR : Znth BR k = Some b).
    { rewrite H3 by lia. rewrite HR' by lia. rewrite Z.mod_small by lia. rewrite <- EB'. f_equal. lia. }
    assert (Ef : Znth diff k = Some (Rabs (a - b))) by (unfold diff; rewrite Znth_map, (Znth_combine _ _ _ _ _ EX EBR); reflexivity).
    assert (Er : Znth ratio k = Some (if Req_EM_T dist 0 then 0%R else (Rabs (a - b) / dist)%R)) by (unfold ratio; rewrite Znth_map, (Znth_combine _ _ _ _ _ Ef ED); reflexivity).
    rewrite (Znth_combine _ _ _ _ _ Er ED). unfold f. clear - Hnk Hnm Ha Hb. split.
    + intros [x [Ex Hx]]. injection Ex as <-. cbn [fst snd] in Hx. exists dist, i, dist', j, a, b. do 4 (split; [assumption|]).
      destruct (Req_EM_T dist 0) as [E0|E0]; [destruct (Rlt_dec 10 0); [lra|discriminate]|]. split; [assumption|].
      destruct (Rlt_dec 10 (Rabs (a - b) / dist)); [|discriminate]. destruct (Rlt_dec dist (2 * std X)); [|discriminate]. easy.
    + intros (e & i' & e' & j' & a' & b' & K1 & K2 & K3 & K4 & N & R1 & R2). rewrite Hnk in K1. injection K1 as <- <-. rewrite Hnm in K2. injection K2 as <- <-. rewrite Ha in K3. injection K3 as <-.
      rewrite Hb in K4. injection K4 as <-. eexists. split; [reflexivity|]. cbn [fst snd]. destruct (Req_EM_T dist 0); [contradiction|].
      destruct (Rlt_dec 10 (Rabs (a - b) / dist)); [|contradiction]. destruct (Rlt_dec dist (2 * std X)); [reflexivity|contradiction].
Qed.
(** The number lies between 0 and n' - d t (it is 0 if this is negative); 0 for a constant series. *)
Theorem false_neighbors_range X t d s c : 1 <= t -> 1 <= d -> 1 <= s ->
  (forall W, zlen (nn W) = zlen W /\ forall x j, In (x, j) (nn W) -> (0 <= x)%R /\ 0 <= j < zlen W) ->
  false_nearest_neighbors nn X t d s = Ok c ->
  0 <= c <= Z.max 0 ((zlen X - t * (d - 1) - 1) / s + 1 - d * t) /\
  ((forall x y, In x X -> In y X -> x = y) -> c = 0).
Proof.
  intros Ht Hd Hs NN E. destruct (Z_lt_le_dec (zlen X) (t * (d - 1) + 1 + s)) as [G|G]; [rewrite false_neighbors_short in E by lia; discriminate|].
  destruct (false_neighbors_spec X t d s Ht Hd Hs G) as [W [[LW _] H]]. destruct (NN W) as [LN IN]. destruct H as [c' [E' C]]; [split; [assumption|]; intros x j I; now apply (IN x j)|].
  rewrite E in E'. injection E' as <-. assert (NX : X <> []) by (intros ->; change (zlen (@nil R)) with 0 in G; nia). specialize (C _ (std_spec X NX)). pose proof (counts_range _ _ _ C) as R. rewrite LW in R. split; [lia|].
  intros Const. apply (counts_none _ _ _ C). intros k Hk (e & i & e' & j & a & b & K1 & K2 & K3 & K4 & N & R1 & R2). destruct (NN W) as [_ IN']. pose proof (proj1 (IN' _ _ (Znth_In _ _ _ K1))) as P.
  assert (a = b) by (apply Const; eapply Znth_In; eassumption). subst. replace (b - b)%R with 0%R in R1 by ring; rewrite Rabs_R0 in R1. unfold Rdiv in R1. rewrite Rmult_0_l in R1. lra.
Qed.
End Fnn.
