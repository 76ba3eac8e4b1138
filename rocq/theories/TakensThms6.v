(** C66, C67: invariance of false neighbours, comparison with the textbook criterion, examples. *)
From Coq Require Import Reals Lra.
From Verif Require Import Np NpFacts Fl RNp RNormFacts MetricSpec MetricProofs2 FeatProofs FilterThms TSModel TSProofs TakensModel TakensSpec LocalThms2 TakensThms TakensThms2 TakensThms3 TakensThms4 TakensThms5.
From Verif Require NdFacts.
Open Scope Z_scope.

(** ** Unit and origin do not matter *)
Lemma embedded_unique X t d s n W W' : embedded X t d s n W -> embedded X t d s n W' -> W = W'.
Proof.
  intros [L H] [L' H']. apply Znth_ext; [lia|]. intros i Hi. rewrite L in Hi. destruct (H i Hi) as [w [-> [Lw Hw]]]. destruct (H' i Hi) as [w' [-> [Lw' Hw']]]. f_equal.
  apply Znth_ext; [lia|]. intros j Hj. rewrite Lw in Hj. rewrite (proj1 (Hw j Hj)), (proj1 (Hw' j Hj)). reflexivity.
Qed.
Lemma embedded_map f X t d s n W : embedded X t d s n W -> embedded (map f X) t d s n (map (map f) W).
Proof.
  intros [L H]. split; [now rewrite zlen_map|]. intros i Hi. destruct (H i Hi) as [w [Hw [Lw Hv]]]. exists (map f w). rewrite Znth_map, Hw. split; [reflexivity|]. split; [now rewrite zlen_map|].
  intros j Hj. rewrite !Znth_map, zlen_map. destruct (Hv j Hj) as [-> N]. split; [reflexivity|]. destruct (Znth X _); [discriminate|contradiction].
Qed.
Lemma Rabs_mult_self c : (Rabs c * Rabs c = c * c)%R.
Proof. rewrite <- Rabs_mult. apply Rabs_pos_eq, Rle_0_sqr. Qed.
Lemma euclidean_affine c b u v : euclidean (map (fun x => c * x + b)%R u) (map (fun x => c * x + b)%R v) = (Rabs c * euclidean u v)%R.
Proof.
  unfold euclidean. assert (E : total (map (fun ab => ((fst ab - snd ab) * (fst ab - snd ab))%R) (combine (map (fun x => c * x + b)%R u) (map (fun x => c * x + b)%R v))) = (c * c * total (map (fun ab => ((fst ab - snd ab) * (fst ab - snd ab))%R) (combine u v)))%R).
  { change total with rsum. revert v. induction u as [|x u IH]; intros [|y v]; cbn [map combine]; try (cbn; ring). rewrite !rsum_cons, IH. cbn [fst snd]. ring. }
  rewrite E. rewrite sqrt_mult; [|apply Rle_0_sqr|].
  - f_equal. rewrite <- Rabs_mult_self. apply sqrt_square, Rabs_pos.
  - change total with rsum. apply rsum_nonneg. intros x Hx. apply in_map_iff in Hx. destruct Hx as [y [<- _]]. apply Rle_0_sqr.
Qed.
Definition rescaled (c : R) (nb : list (R * Z)) : list (R * Z) := map (fun dj => (Rabs c * fst dj, snd dj)%R) nb.
(** Nearest neighbours after a change of unit and origin are the same points at rescaled distances. *)
Theorem nearest_affine c b W nb : nearest W nb -> nearest (map (map (fun x => c * x + b)%R) W) (rescaled c nb).
Proof.
  intros [L H]. unfold rescaled. split; [now rewrite !zlen_map|]. intros k p d j Hp Hd. rewrite Znth_map in Hp; rewrite Znth_map in Hd.
  destruct (Znth W k) as [p0|] eqn:Ep; [|discriminate]. injection Hp as <-. destruct (Znth nb k) as [[d0 j0]|] eqn:Ed; [|discriminate]. injection Hd as <- <-. cbn [fst snd].
  destruct (H k p0 d0 j0 Ep Ed) as [N [[q [Hq ->]] Mn]]. split; [assumption|]. split.
  - exists (map (fun x => c * x + b)%R q). rewrite Znth_map, Hq. split; [reflexivity|]. now rewrite euclidean_affine.
  - intros j' q' N' Hq'. rewrite Znth_map in Hq'. destruct (Znth W j') as [q2|] eqn:Eq; [|discriminate]. injection Hq' as <-. rewrite euclidean_affine. apply Rmult_le_compat_l; [apply Rabs_pos|]. eapply Mn; eassumption.
Qed.
Lemma deviation_affine c b X s : X <> [] -> deviation X s -> deviation (map (fun x => c * x + b)%R X) (Rabs c * s).
Proof.
  intros NX [P E]. assert (HN : (0 < IZR (zlen X))%R) by (apply (IZR_lt 0); destruct X; [easy|]; rewrite zlen_cons; pose proof (zlen_nonneg X); lia).
  assert (T : total (map (fun x => c * x + b)%R X) = (c * total X + IZR (zlen X) * b)%R) by (rewrite total_map_add, total_map_scal, total_const, map_id; reflexivity).
  split; [apply Rmult_le_pos; [apply Rabs_pos|assumption]|]. rewrite zlen_map, T, map_map.
  set (mu := (total X / IZR (zlen X))%R) in *.
  assert (V : total (map (fun x => (c * x + b - (c * total X + IZR (zlen X) * b) / IZR (zlen X)) * (c * x + b - (c * total X + IZR (zlen X) * b) / IZR (zlen X)))%R X) = (c * c * total (map (fun x => (x - mu) * (x - mu))%R X))%R).
  { rewrite <- total_map_scal. f_equal. apply map_ext. intros x. unfold mu. field. lra. }
  rewrite V. transitivity (c * c * (s * s))%R; [rewrite <- (Rabs_mult_self c); ring|]. rewrite E. field. lra.
Qed.
Theorem false_neighbors_affine nn X t d s c b : 1 <= t -> 1 <= d -> 1 <= s -> c <> 0%R ->
  (forall W, zlen (nn W) = zlen W /\ forall x j, In (x, j) (nn W) -> 0 <= j < zlen W) ->
  (forall W, nn (map (map (fun x => c * x + b)%R) W) = rescaled c (nn W)) ->
  false_nearest_neighbors nn (map (fun x => c * x + b)%R X) t d s = false_nearest_neighbors nn X t d s.
Proof.
  intros Ht Hd Hs Hc NN Eq. set (f := fun x => (c * x + b)%R) in *. destruct (Z_lt_le_dec (zlen X) (t * (d - 1) + 1 + s)) as [G|G].
  - rewrite !false_neighbors_short by (rewrite ?zlen_map; lia). reflexivity.
  - destruct (false_neighbors_spec nn X t d s Ht Hd Hs G) as [W [HW H]]. destruct (H (NN W)) as [k [E C]]. rewrite E.
    destruct (false_neighbors_spec nn (map f X) t d s Ht Hd Hs ltac:(rewrite zlen_map; assumption)) as [W' [HW' H']]. rewrite zlen_map in HW'.
    rewrite (embedded_unique _ _ _ _ _ _ _ HW' (embedded_map f _ _ _ _ _ _ HW)) in *. destruct (H' (NN _)) as [k' [E' C']]. rewrite E'. f_equal.
    assert (NX : X <> []) by (intros ->; change (zlen (@nil R)) with 0 in G; nia). pose proof (std_spec X NX) as SD. specialize (C _ SD). specialize (C' _ (deviation_affine c b X _ NX SD)).
    rewrite !zlen_map, Eq in C'. pose proof (Rabs_pos_lt c Hc) as Pc. eapply counts_unique; [exact C'|]. revert C. apply counts_ext. intros i Hi. unfold rescaled. rewrite !Znth_map. split.
    + intros (e & i1 & e' & j & a & z & K1 & K2 & K3 & K4 & N & R1 & R2). rewrite K1, K2. exists (Rabs c * e)%R, i1, (Rabs c * e')%R, j, (f a), (f z). cbn [option_map fst snd]. split; [reflexivity|]. split; [reflexivity|].
      rewrite K3, Znth_map, K4. split; [reflexivity|]. split; [reflexivity|]. split; [apply Rmult_integral_contrapositive_currified; lra|]. split; [|nra].
      unfold f. replace (c * a + b - (c * z + b))%R with (c * (a - z))%R by ring. rewrite Rabs_mult. replace (Rabs c * Rabs (a - z) / (Rabs c * e))%R with (Rabs (a - z) / e)%R by (field; lra). assumption.
    + destruct (Znth (nn W) i) as [[e i1]|] eqn:K1; [|intros (? & ? & ? & ? & ? & ? & ? & _); discriminate].
      destruct (Znth (nn W) (i + d * t)) as [[e' j]|] eqn:K2; [|intros (? & ? & ? & ? & ? & ? & ? & ? & _); discriminate]. cbn [option_map fst snd].
      intros (? & ? & ? & j' & ? & ? & Q1 & Q2 & Q3 & Q4 & N & R1 & R2). injection Q1 as <- <-. injection Q2 as <- <-. rewrite Znth_map in Q4.
      destruct (Znth X (zlen X - zlen W + i + d * t)) as [a|] eqn:K3; [|discriminate]. injection Q3 as <-. destruct (Znth X j) as [z|] eqn:K4; [|discriminate]. injection Q4 as <-.
      exists e, i1, e', j, a, z. do 4 (split; [first [reflexivity|assumption]|]). assert (e <> 0%R) by (intros ->; rewrite Rmult_0_r in N; lra). split; [assumption|]. split; [|nra].
      unfold f in R1. replace (c * a + b - (c * z + b))%R with (c * (a - z))%R in R1 by ring. rewrite Rabs_mult in R1. replace (Rabs c * Rabs (a - z) / (Rabs c * e))%R with (Rabs (a - z) / e)%R in R1 by (field; lra). assumption.
Qed.

(** ** The textbook criterion *)
(** Kennel, Brown and Abarbanel: vector k and its nearest neighbour i are false neighbours if adding
    one more coordinate, X[k + d t] and X[i + d t], separates them.  (stride 1) *)
Definition textbook (X : list R) (nb : list (R * Z)) (t d : Z) (sd : R) (k : Z) : Prop :=
  exists dist i a b, Znth nb k = Some (dist, i) /\ Znth X (k + d * t) = Some a /\ Znth X (i + d * t) = Some b /\
    dist <> 0%R /\ (10 < Rabs (a - b) / dist)%R /\ (dist < 2 * sd)%R.
Definition ex_X : list R := [0; 50; 1; -50; 50; -50]%R.
Definition ex_nb : list (R * Z) := [(1%R, 2); (0%R, 4); (1%R, 0); (0%R, 5); (0%R, 1); (0%R, 3)].
Lemma euclidean1 a b : euclidean [a] [b] = Rabs (a - b).
Proof. unfold euclidean. cbn [combine map fst snd]. unfold total. cbn [fold_right]. rewrite Rplus_0_r. apply sqrt_Rsqr_abs. Qed.
Lemma ex_nearest : nearest (map (fun x => [x]) ex_X) ex_nb.
Proof.
  assert (K : forall n k, 0 <= k < n -> n = 6 -> k = 0 \/ k = 1 \/ k = 2 \/ k = 3 \/ k = 4 \/ k = 5) by (intros; lia).
  split; [reflexivity|]. intros k p d j Hp Hd. pose proof (Znth_Some_lt _ _ _ Hd) as Bk. apply (fun H => K _ _ H eq_refl) in Bk.
  assert (A : forall x, (0 <= x)%R -> Rabs x = x) by (intros; apply Rabs_pos_eq; assumption). assert (A' : forall x, (x <= 0)%R -> Rabs x = (- x)%R) by (intros; apply Rabs_left1; assumption).
  destruct Bk as [->|[->|[->|[->|[->| ->]]]]]; cbn in Hp, Hd; injection Hp as <-; injection Hd as <- <-; (split; [discriminate|]; split;
    [eexists; split; [reflexivity|]; rewrite euclidean1; first [rewrite A by lra; lra|rewrite A' by lra; lra]|];
    intros j' q' N Hq; pose proof (Znth_Some_lt _ _ _ Hq) as Bj; apply (fun H => K _ _ H eq_refl) in Bj;
    destruct Bj as [->|[->|[->|[->|[->| ->]]]]]; try congruence; cbn in Hq; injection Hq as <-; rewrite euclidean1; first [rewrite A by lra; lra|rewrite A' by lra; lra]).
Qed.
Theorem false_neighbors_textbook_refuted :
  exists nn X W, embedded X 1 1 1 (zlen X) W /\ nearest W (nn W) /\
    false_nearest_neighbors nn X 1 1 1 = Ok 0 /\
    forall sd, deviation X sd -> textbook X (nn W) 1 1 sd 0 /\ textbook X (nn W) 1 1 sd 2.
Proof.
  exists (fun _ => ex_nb), ex_X, (map (fun x => [x]) ex_X).
  assert (EW : embedded ex_X 1 1 1 6 (map (fun x => [x]) ex_X)).
  { split; [reflexivity|]. intros i Hi. rewrite Znth_map. destruct (Znth_ex ex_X i Hi) as [x Hx]. rewrite Hx. exists [x]. split; [reflexivity|]. split; [reflexivity|]. intros j Hj. replace j with 0 by lia.
    replace (zlen ex_X - 1 * (1 - 1) - 1 - (6 - 1 - i) * 1 + 0 * 1) with i by (change (zlen ex_X) with 6; lia). rewrite Hx. split; [reflexivity|discriminate]. }
  split; [exact EW|]. split; [exact ex_nearest|].
  assert (SD : forall sd, deviation ex_X sd -> (25 < sd)%R).
  { intros sd [P E]. unfold ex_X, total in E. change (zlen [0; 50; 1; -50; 50; -50]%R) with 6 in E. cbn [map fold_right] in E. nra. }
  split.
  - destruct (false_neighbors_spec (fun _ => ex_nb) ex_X 1 1 1) as [W [HW H]]; try lia; [change (zlen ex_X) with 6; lia|].
    change ((zlen ex_X - 1 * (1 - 1) - 1) / 1 + 1) with 6 in HW. rewrite (embedded_unique _ _ _ _ _ _ _ HW EW) in *. destruct H as [c [E C]].
    { split; [reflexivity|]. unfold ex_nb. intros x j I. change (zlen (map (fun x => [x]) ex_X)) with 6. cbn in I. repeat (destruct I as [I|I]; [injection I as <- <-; lia|]). easy. }
    rewrite E. f_equal. specialize (C _ (std_spec ex_X ltac:(discriminate))). apply (counts_none _ _ _ C).
    intros k Hk (e & i & e' & j & a & b & K1 & K2 & K3 & K4 & N & R1 & R2). change (zlen (map (fun x => [x]) ex_X) - 1 * 1) with 5 in Hk. change (zlen ex_X - zlen (map (fun x => [x]) ex_X)) with 0 in K3.
    assert (k = 0 \/ k = 1 \/ k = 2 \/ k = 3 \/ k = 4) as [->|[->|[->|[->| ->]]]] by lia; cbn in K1, K2, K3; injection K1 as <- <-; injection K2 as <- <-; injection K3 as <-; cbn in K4; injection K4 as <-; try lra.
    + replace (50 - 50)%R with 0%R in R1 by ring. rewrite Rabs_R0 in R1. lra.
    + replace (-50 - -50)%R with 0%R in R1 by ring. rewrite Rabs_R0 in R1. lra.
  - intros sd Hsd. specialize (SD sd Hsd). split.
    + exists 1%R, 2, 50%R, (-50)%R. do 3 (split; [reflexivity|]). split; [lra|]. split; [|lra]. rewrite Rabs_pos_eq by lra. lra.
    + exists 1%R, 0, (-50)%R, 50%R. do 3 (split; [reflexivity|]). split; [lra|]. split; [|lra]. rewrite Rabs_left by lra. lra.
Qed.

(** ** Examples *)
(** The alternating series 0, 1, 0, 1 and delays 1 and 2 *)
Definition alt_X : list R := [0; 1; 0; 1]%R.
Lemma bin_0 : in_bin 0 1 100 0 0.
Proof. unfold in_bin. split; [lia|]. split; [lra|left; lra]. Qed.
Lemma bin_99 : in_bin 0 1 100 99 1.
Proof. unfold in_bin. split; [lia|]. split; [lra|right; split; [lia|reflexivity]]. Qed.
Lemma bin_not_99 : ~ in_bin 0 1 100 99 0.
Proof. intros [_ [H _]]. lra. Qed.
Lemma bin_not_0 : ~ in_bin 0 1 100 0 1.
Proof. intros [_ [_ [H|[H _]]]]; [lra|lia]. Qed.
Lemma alt_interval l : In 0%R l -> In 1%R l -> (forall x, In x l -> x = 0%R \/ x = 1%R) -> is_interval l 0 1.
Proof. intros A B C. exists 0%R, 1%R. split; [assumption|]. split; [assumption|]. split; [intros x Hx; destruct (C x Hx); lra|]. split; [easy|intros; lra]. Qed.
Example alt_positive : (0 < mutual_information alt_X 1 100)%R /\ (0 < mutual_information alt_X 2 100)%R.
Proof.
  assert (S : forall l, (forall x, In x l -> x = 0%R \/ x = 1%R) -> forall k a, Znth l k = Some a -> a = 0%R \/ a = 1%R) by (intros l H k a Ha; apply H; eapply Znth_In; eassumption).
  split.
  - apply (mutual_information_pos alt_X 1 100 [0; 1; 0]%R [1; 0; 1]%R 0 1 0 1 0 0 0 1 0 0); try lia; try reflexivity; try exact bin_0.
    + split; [reflexivity|]. split; [reflexivity|]. intros k Hk. change (zlen alt_X - 1) with 3 in Hk. assert (k = 0 \/ k = 1 \/ k = 2) as [->|[->| ->]] by lia; split; reflexivity.
    + apply alt_interval; cbn; intuition.
    + apply alt_interval; cbn; intuition.
    + intros k a b Ha Hb Ba Bb. pose proof (Znth_Some_lt _ _ _ Ha) as Hk. change (zlen [0; 1; 0]%R) with 3 in Hk. assert (k = 0 \/ k = 1 \/ k = 2) as [->|[->| ->]] by lia; cbn in Ha, Hb; injection Ha as <-; injection Hb as <-; solve [now apply bin_not_0].
  - apply (mutual_information_pos alt_X 2 100 [0; 1]%R [0; 1]%R 0 1 0 1 0 99 0 1 0 1); try lia; try reflexivity; try exact bin_0; try exact bin_99.
    + split; [reflexivity|]. split; [reflexivity|]. intros k Hk. change (zlen alt_X - 2) with 2 in Hk. assert (k = 0 \/ k = 1) as [->| ->] by lia; split; reflexivity.
    + apply alt_interval; cbn; intuition.
    + apply alt_interval; cbn; intuition.
    + intros k a b Ha Hb Ba Bb. pose proof (Znth_Some_lt _ _ _ Ha) as Hk. change (zlen [0; 1]%R) with 2 in Hk. assert (k = 0 \/ k = 1) as [->| ->] by lia; cbn in Ha, Hb; injection Ha as <-; injection Hb as <-; [now apply bin_not_99|now apply bin_not_0].
Qed.
(** So the search on it with max_time_delay = 3 fails, with any nearest neighbours. *)
Example alt_search nn D s : (forall W, zlen (nn W) = zlen W /\ forall x j, In (x, j) (nn W) -> 0 <= j < zlen W) -> 2 <= D -> 1 <= s ->
  takens_search nn alt_X 3 D s = Err ValueError.
Proof.
  intros NN HD Hs. apply takens_search_long_delay_refuted; [assumption|change (zlen alt_X) with 4; lia|assumption..|]. change (zlen alt_X - 1) with 3. intros t Ht.
  assert (t = 1 \/ t = 2) as [->| ->] by lia; apply alt_positive.
Qed.
(** A constant series of length at least D + 2 + s: delay 1, dimension 2. *)
Example constant_search nn v n D s : (forall W, zlen (nn W) = zlen W /\ forall x j, In (x, j) (nn W) -> (0 <= x)%R /\ 0 <= j < zlen W) ->
  2 <= D -> 1 <= s -> D + 2 + s <= n -> takens_search nn (tabZ n (fun _ => v)) 3 D s = Ok (1, 2).
Proof.
  intros NN HD Hs Hn. set (X := tabZ n (fun _ => v)). assert (LX : zlen X = n) by (apply zlen_tabZ; lia).
  assert (CX : forall x, In x X -> x = v) by (intros x Hx; apply In_tabZ in Hx; destruct Hx as [_ [_ Hx]]; now symmetry).
  assert (MI : forall t, 1 <= t -> mutual_information X t 100 = 0%R) by (intros t Ht; apply (mutual_information_constant X t 100 v); [lia..|]; intros k x _ Hx; apply CX; eapply Znth_In; eassumption).
  assert (NN' : forall W, zlen (nn W) = zlen W /\ forall x j, In (x, j) (nn W) -> 0 <= j < zlen W) by (intros W; destruct (NN W) as [A B]; split; [assumption|]; intros x j I; now apply (B x j)).
  destruct (takens_search_full nn NN' X 3 D s ltac:(lia) HD Hs) as (t & Ht & _ & M2 & _ & Long).
  assert (t = 1). { destruct (Z.eq_dec t 1); [assumption|]. exfalso. specialize (M2 1 ltac:(lia)). rewrite !MI in M2 by lia. lra. }
  subst t. destruct Long as (d & f & E & F & Hd & _ & D2); [lia|]. rewrite E.
  assert (F0 : forall d', 1 <= d' <= D + 2 -> f d' = 0).
  { intros d' Hd'. eapply (proj2 (false_neighbors_range nn X 1 d' s (f d') ltac:(lia) ltac:(lia) Hs NN (F d' Hd'))). intros x y Hx Hy. rewrite (CX x Hx), (CX y Hy). reflexivity. }
  destruct (Z.eq_dec d 2) as [->|N]; [reflexivity|]. exfalso. specialize (D2 2 ltac:(lia)). unfold dim_score in D2. rewrite !F0 in D2 by lia. cbn [Z.mul Z.sub Z.add Z.abs Z.opp] in D2.
  assert (Z0 : forall a b : Qc, (Q2Qc (inject_Z 0) / a / b = 0)%Qc) by (intros; unfold Qcdiv; change (Q2Qc (inject_Z 0)) with 0%Qc; ring). rewrite !Z0 in D2. now apply Qclt_not_eq in D2.
Qed.
Print Assumptions false_neighbors_short.
Print Assumptions false_neighbors_spec.
Print Assumptions false_neighbors_range.
Print Assumptions false_neighbors_affine.
Print Assumptions false_neighbors_textbook_refuted.
Print Assumptions takens_search_full.
Print Assumptions takens_search_long_delay_refuted.
Print Assumptions mutual_information_pos.
