(** C66, C67: the search for the parameters of a Takens embedding; further facts on false neighbours. *)
From Coq Require Import Reals Lra.
From Verif Require Import Np NpFacts Fl RNp RNormFacts MetricSpec MetricProofs2 FeatProofs FilterThms TSModel TSProofs TakensModel TakensSpec LocalThms2 TakensThms TakensThms2 TakensThms3 TakensThms4.
From Verif Require NdFacts.
Open Scope Z_scope.

(** ** The search *)
Lemma real_min_spec l : l <> [] -> exists m, real_min l = Ok m /\ In m l /\ forall y, In y l -> (m <= y)%R.
Proof.
  destruct l as [|x t]; [easy|]. intros _. cbn [real_min]. eexists. split; [reflexivity|]. revert x. induction t as [|y t IH]; intros x; cbn [fold_left].
  - split; [now left|]. intros y [<-|[]]. lra.
  - destruct (IH (if Rlt_dec y x then y else x)) as [I H]. split.
    + destruct I as [I|I]; [|right; now right]. rewrite <- I. destruct (Rlt_dec y x); [right; now left|now left].
    + pose proof (H _ (or_introl eq_refl)) as H0. intros z [<-|[<-|Hz]]; [| |apply H; now right]; destruct (Rlt_dec y x); lra.
Qed.
Lemma real_index_spec l x : In x l -> exists i, real_index l x = Ok i /\ Znth l i = Some x /\ forall j y, 0 <= j < i -> Znth l j = Some y -> y <> x.
Proof.
  induction l as [|y t IH]; [easy|]. intros Hin. cbn [real_index]. destruct (Req_EM_T y x) as [->|Hne].
  - exists 0. split; [reflexivity|]. split; [reflexivity|]. intros; lia.
  - destruct Hin as [->|Hin]; [easy|]. destruct (IH Hin) as [i [H1 [H2 H3]]]. rewrite H1. assert (Hi := Znth_Some_lt _ _ _ H2). exists (i + 1). split; [reflexivity|]. split.
    + rewrite Znth_cons by lia. now replace (i + 1 - 1) with i by lia.
    + intros j z Hj Hz. destruct (Z.eq_dec j 0) as [->|Nj]; [cbn in Hz; congruence|]. rewrite Znth_cons in Hz by lia. eapply H3; [|eassumption]. lia.
Qed.

Section Search.
Variable nn : list (list R) -> list (R * Z).
Hypothesis nn_ok : forall W, zlen (nn W) = zlen W /\ forall x j, In (x, j) (nn W) -> 0 <= j < zlen W.

(** The delay is the first one of least mutual information; the dimension is then the first one of
    least score.  ValueError if the series is too short for dimension D + 2 and this delay. *)
Theorem takens_search_full X T D s : 1 <= T -> 2 <= D -> 1 <= s ->
  exists t, 1 <= t <= T /\
    (forall t', 1 <= t' <= T -> (mutual_information X t 100 <= mutual_information X t' 100)%R) /\
    (forall t', 1 <= t' < t -> (mutual_information X t 100 < mutual_information X t' 100)%R) /\
    (zlen X < t * (D + 1) + 1 + s -> takens_search nn X T D s = Err ValueError) /\
    (t * (D + 1) + 1 + s <= zlen X -> exists d f,
       takens_search nn X T D s = Ok (t, d) /\
       (forall d', 1 <= d' <= D + 2 -> false_nearest_neighbors nn X t d' s = Ok (f d')) /\
       2 <= d <= D /\
       (forall d', 2 <= d' <= D -> (dim_score f d <= dim_score f d')%Qc) /\
       (forall d', 2 <= d' < d -> (dim_score f d < dim_score f d')%Qc)).
Proof.
  intros HT HD Hs. unfold takens_search. set (mi := fun t => mutual_information X t 100). set (mis := map mi (prange 1 (T + 1) 1)).
  assert (Emis : mis = tabZ T (fun k => mi (1 + k))) by (unfold mis; rewrite prange1_tab, tabZ_map; replace (T + 1 - 1) with T by lia; reflexivity).
  assert (Lm : zlen mis = T) by (rewrite Emis; apply zlen_tabZ; lia).
  destruct (real_min_spec mis) as [mn [E1 [I1 M1]]]; [intros E; rewrite E in Lm; cbn in Lm; lia|]. destruct (real_index_spec mis mn I1) as [i [E2 [I2 M2]]].
  rewrite E1. cbn [bind]. rewrite E2. cbn [bind]. pose proof (Znth_Some_lt _ _ _ I2) as Hi. rewrite Lm in Hi.
  assert (N : forall k, 0 <= k < T -> Znth mis k = Some (mi (1 + k))) by (intros k Hk; rewrite Emis; now rewrite Znth_tabZ).
  assert (Em : mi (i + 1) = mn) by (rewrite (N i Hi) in I2; rewrite Z.add_comm; congruence).
  exists (i + 1). split; [lia|]. split; [|split; [|split]].
  - intros t' Ht'. change (mi (i + 1)%Z <= mi t')%R. rewrite Em. apply M1. specialize (N (t' - 1) ltac:(lia)). replace (1 + (t' - 1)) with t' in N by lia. eapply Znth_In; eassumption.
  - intros t' Ht'. change (mi (i + 1)%Z < mi t')%R. rewrite Em. specialize (N (t' - 1) ltac:(lia)). replace (1 + (t' - 1)) with t' in N by lia.
    pose proof (M1 _ (Znth_In _ _ _ N)). pose proof (M2 (t' - 1) _ ltac:(lia) N). lra.
  - intros Short. assert (E : mapM (fun dim => false_nearest_neighbors nn X (i + 1) dim s) (prange 1 (D + 3) 1) = Err ValueError); [|now rewrite E].
    apply mapM_err.
    + intros d Hd. rewrite prange1_tab in Hd. apply In_tabZ in Hd. destruct Hd as [k [Hk <-]].
      destruct (Z_lt_le_dec (zlen X) ((i + 1) * (1 + k - 1) + 1 + s)) as [G|G]; [right; apply false_neighbors_short; lia|left].
      destruct (false_neighbors_spec nn X (i + 1) (1 + k) s ltac:(lia) ltac:(lia) Hs G) as [W [_ H]]. destruct (H (nn_ok W)) as [c [E' _]]. eauto.
    + exists (D + 2). split; [rewrite prange1_tab; apply In_tabZ; exists (D + 1); lia|]. apply false_neighbors_short; lia.
  - intros Long.
    assert (F : forall d, 1 <= d <= D + 2 -> exists c, false_nearest_neighbors nn X (i + 1) d s = Ok c).
    { intros d Hd. destruct (false_neighbors_spec nn X (i + 1) d s ltac:(lia) ltac:(lia) Hs ltac:(nia)) as [W [_ H]]. destruct (H (nn_ok W)) as [c [E' _]]. eauto. }
    set (f := fun d => match false_nearest_neighbors nn X (i + 1) d s with Ok c => c | Err _ => 0 end).
    assert (Ff : forall d, 1 <= d <= D + 2 -> false_nearest_neighbors nn X (i + 1) d s = Ok (f d)) by (intros d Hd; unfold f; destruct (F d Hd) as [c ->]; reflexivity).
    assert (EF : mapM (fun dim => false_nearest_neighbors nn X (i + 1) dim s) (prange 1 (D + 3) 1) = Ok (map f (prange 1 (D + 3) 1))).
    { apply mapM_Ok. intros d Hd. rewrite prange1_tab in Hd. apply In_tabZ in Hd. destruct Hd as [k [Hk <-]]. apply Ff. lia. }
    rewrite EF. cbn [bind]. set (vars := map (dim_score f) (prange 2 (D + 1) 1)).
    assert (Ev : mapM (variation (map f (prange 1 (D + 3) 1))) (prange 2 (D + 1) 1) = Ok vars).
    { apply mapM_Ok. intros d Hd. apply variation_ok. rewrite prange1_tab in Hd. apply In_tabZ in Hd. destruct Hd as [k [Hk <-]]. lia. }
    rewrite Ev. cbn [bind].
    assert (Evars : vars = tabZ (D - 1) (fun k => dim_score f (2 + k))) by (unfold vars; rewrite prange1_tab, tabZ_map; replace (D + 1 - 2) with (D - 1) by lia; reflexivity).
    assert (Lv : zlen vars = D - 1) by (rewrite Evars; apply zlen_tabZ; lia).
    destruct (argmin_spec vars) as [v [j [H1 [H2 [H3 [H4 H5]]]]]]; [intros E; rewrite E in Lv; cbn in Lv; lia|].
    rewrite H1. cbn [bind]. rewrite H2. cbn [bind]. pose proof (Znth_Some_lt _ _ _ H3) as Hj. rewrite Lv in Hj.
    assert (M : forall k, 0 <= k < D - 1 -> Znth vars k = Some (dim_score f (2 + k))) by (intros k Hk; rewrite Evars; now rewrite Znth_tabZ).
    assert (Ej : dim_score f (j + 2) = v) by (rewrite (M j Hj) in H3; rewrite Z.add_comm; congruence).
    exists (j + 2), f. split; [reflexivity|]. split; [assumption|]. split; [lia|]. rewrite Ej. split; intros d' Hd'; specialize (M (d' - 2) ltac:(lia)); replace (2 + (d' - 2)) with d' in M by lia.
    + eapply H4; eassumption.
    + eapply H5; [|eassumption]. lia.
Qed.

(** With max_time_delay at least n - 1 the single pair at delay n - 1 has mutual information 0, so the
    search takes it and fails, whatever the series, unless a smaller delay has information 0. *)
Theorem takens_search_long_delay_refuted X T D s : 2 <= zlen X <= T + 1 -> 2 <= D -> 1 <= s ->
  (forall t, 1 <= t < zlen X - 1 -> (0 < mutual_information X t 100)%R) ->
  takens_search nn X T D s = Err ValueError.
Proof.
  intros HT HD Hs P. destruct (takens_search_full X T D s ltac:(lia) HD Hs) as [t [Ht [M1 [_ [E _]]]]]. apply E.
  assert (zlen X - 1 <= t).
  { destruct (Z_lt_le_dec t (zlen X - 1)) as [L|L]; [|assumption]. exfalso. specialize (P t ltac:(lia)). specialize (M1 (zlen X - 1) ltac:(lia)). rewrite (mutual_information_degenerate X (zlen X - 1)) in M1 by lia. lra. }
  nia.
Qed.
End Search.

(** Positive if a bin of the series and a bin of the delayed series occur, but never together. *)
Theorem mutual_information_pos X t m A B lo hi lo' hi' i j k1 k2 a b : 1 <= t -> 1 <= m -> delayed X t A B -> is_interval A lo hi -> is_interval B lo' hi' ->
  Znth A k1 = Some a -> in_bin lo hi m i a -> Znth B k2 = Some b -> in_bin lo' hi' m j b ->
  (forall k a' b', Znth A k = Some a' -> Znth B k = Some b' -> in_bin lo hi m i a' -> in_bin lo' hi' m j b' -> False) ->
  (0 < mutual_information X t m)%R.
Proof.
  intros Ht M D IA IB H1 B1 H2 B2 No. destruct (mutual_information_nonneg X t m M) as [P|P]; [assumption|exfalso]. symmetry in P.
  set (c := cell A B m). assert (L : zlen A = zlen B) by (destruct D as [LA [LB _]]; lia).
  assert (J : joint A B m c) by (exists lo, hi, lo', hi'; split; [assumption|]; split; [assumption|]; intros; now apply cell_counts).
  apply (mutual_information_zero X t m A B c Ht M D J) with (i := i) (j := j) in P; [|now destruct B1|now destruct B2].
  assert (C0 : c i j = 0). { eapply counts_none; [apply (cell_counts A B m i j lo hi lo' hi'); assumption|]. intros k Hk (a' & b' & K1 & K2 & K3 & K4). eapply No; eassumption. }
  rewrite C0 in P. assert (CP : forall i j, (0 <= IZR (c i j))%R) by (intros; apply (IZR_le 0); apply zlen_nonneg).
  destruct (is_interval_lt _ _ _ IA) as [PA RA]. destruct (is_interval_lt _ _ _ IB) as [PB RB].
  assert (Pos : forall i j k a b, Znth A k = Some a -> Znth B k = Some b -> in_bin lo hi m i a -> in_bin lo' hi' m j b -> (1 <= IZR (c i j))%R).
  { intros i' j' k a' b' K1 K2 K3 K4. apply (IZR_le 1). destruct (cell_counts A B m i' j' lo hi lo' hi' M L IA IB) as [l [N [I E]]]. unfold c. rewrite <- E. assert (I' : In k l) by (apply I; split; [now apply (Znth_Some_lt _ _ _ K1)|eauto 10]).
    destruct l as [|x l]; [easy|]. rewrite zlen_cons. pose proof (zlen_nonneg l). lia. }
  destruct (Znth_ex B k1) as [b1 Hb1]; [rewrite <- L; now apply (Znth_Some_lt _ _ _ H1)|]. destruct (Znth_ex A k2) as [a2 Ha2]; [rewrite L; now apply (Znth_Some_lt _ _ _ H2)|].
  pose proof (bin_of_spec lo' hi' m b1 PB M (RB _ (Znth_In _ _ _ Hb1))) as Bb1. pose proof (bin_of_spec lo hi m a2 PA M (RA _ (Znth_In _ _ _ Ha2))) as Ba2.
  pose proof (Sum_le m (fun j' => IZR (c i j')) (bin_of (lo', hi') m b1) (fun k _ => CP i k) (proj1 Bb1)) as S1. pose proof (Sum_le m (fun i' => IZR (c i' j)) (bin_of (lo, hi) m a2) (fun k _ => CP k j) (proj1 Ba2)) as S2. cbv beta in S1, S2.
  pose proof (Pos _ _ _ _ _ H1 Hb1 B1 Bb1). pose proof (Pos _ _ _ _ _ Ha2 H2 Ba2 B2). nra.
Qed.
