(** Lemmas about balanced one-dimensional covers. *)
From Coq Require Import Permutation Sorted Field.
From Verif Require Import Np NpFacts Fl FlFacts DiagModel VecModel CoverModel CoverSpec CoverProofs CoverProofs2.
Open Scope Z_scope.

(** ** Ranks *)
Lemma dense_rank_is X x : is_rank X x (dense_rank X x).
Proof.
  exists (nodup Qc_eq_dec (filter (fun y => Qcltb y x) X)). split; [apply NoDup_nodup|].
  split; [reflexivity|]. intros y. rewrite nodup_In, filter_In, Qcltb_lt. reflexivity.
Qed.
Lemma NoDup_incl_zlen {A} (l l' : list A) : NoDup l -> incl l l' -> zlen l <= zlen l'.
Proof. intros. unfold zlen. apply inj_le. now apply NoDup_incl_length. Qed.
Lemma is_rank_unique X x r r' : is_rank X x r -> is_rank X x r' -> r = r'.
Proof.
  intros [l [N [<- H]]] [l' [N' [<- H']]]. apply Z.le_antisymm; apply NoDup_incl_zlen; try assumption.
  - intros y Hy. apply H'. now apply H.
  - intros y Hy. apply H. now apply H'.
Qed.
Lemma rank_nonneg X x : 0 <= dense_rank X x.
Proof. apply zlen_nonneg. Qed.
Lemma rank_lt X x y : In x X -> (x < y)%Qc -> dense_rank X x < dense_rank X y.
Proof.
  intros H L. destruct (dense_rank_is X x) as [l [N [<- Hl]]].
  destruct (dense_rank_is X y) as [l' [N' [<- Hl']]].
  assert (zlen (x :: l) <= zlen l').
  { apply NoDup_incl_zlen.
    - constructor; [|assumption]. intros Hx. apply Hl in Hx as [_ Hx]. now apply (Qclt_not_eq x x) in Hx.
    - intros z [<-|Hz]; apply Hl'; [auto|]. apply Hl in Hz as [? ?].
      split; [assumption|]. eapply Qclt_trans; eassumption. }
  rewrite zlen_cons in H0. lia.
Qed.
Lemma rank_lt_iff X x y : In x X -> In y X -> (dense_rank X x < dense_rank X y <-> (x < y)%Qc).
Proof.
  intros Hx Hy. split; [|now apply rank_lt]. intros L.
  destruct (Qc_lt_le_dec x y) as [|G]; [assumption|]. apply Qcle_lt_or_eq in G as [G| ->]; [|lia].
  apply (rank_lt X) in G; [lia|assumption].
Qed.
Lemma rank_inj X x y : In x X -> In y X -> dense_rank X x = dense_rank X y -> x = y.
Proof.
  intros Hx Hy E. destruct (Qc_dec x y) as [[L|L]|]; [| |assumption]; apply (rank_lt X) in L; auto; lia.
Qed.
Definition distinct (X : list Qc) : Z := zlen (nodup Qc_eq_dec X).
Lemma rank_upper X x : In x X -> dense_rank X x < distinct X.
Proof.
  intros H. destruct (dense_rank_is X x) as [l [N [<- Hl]]].
  assert (zlen (x :: l) <= distinct X).
  { apply NoDup_incl_zlen.
    - constructor; [|assumption]. intros Hx. apply Hl in Hx as [_ Hx]. now apply (Qclt_not_eq x x) in Hx.
    - intros z [<-|Hz]; apply nodup_In; [assumption|]. now apply Hl in Hz. }
  rewrite zlen_cons in H0. lia.
Qed.
Lemma rank_surj X k : 0 <= k < distinct X -> exists v, In v X /\ dense_rank X v = k.
Proof.
  intros Hk.
  assert (I : incl (arange (distinct X)) (map (dense_rank X) (nodup Qc_eq_dec X))).
  { apply NoDup_length_incl.
    - assert (N : NoDup (nodup Qc_eq_dec X)) by apply NoDup_nodup.
      assert (S : forall x, In x (nodup Qc_eq_dec X) -> In x X) by (intros x; apply nodup_In).
      clear Hk. revert N S. generalize (nodup Qc_eq_dec X). induction l as [|x l IH]; intros N S; cbn; constructor.
      + rewrite in_map_iff. intros [y [E Hy]]. inversion N; subst. apply H1.
        rewrite <- (rank_inj X y x); [assumption| |apply S; now left|assumption]. apply S. now right.
      + inversion N; subst. apply IH; [assumption|]. intros; apply S; now right.
    - rewrite map_length. unfold arange, tabZ. rewrite map_length, seq_length. unfold distinct, zlen. lia.
    - intros r Hr. apply in_map_iff in Hr as [x [<- Hx]]. apply nodup_In in Hx. apply In_arange.
      split; [apply rank_nonneg|now apply rank_upper]. }
  assert (Hin : In k (arange (distinct X))) by now apply In_arange.
  apply I in Hin. apply in_map_iff in Hin as [x [E Hx]]. exists x. split; [now apply nodup_In in Hx|assumption].
Qed.
Lemma distinct_pos X : X <> [] -> 1 <= distinct X.
Proof.
  intros H. destruct X as [|x t]; [easy|]. pose proof (rank_upper (x :: t) x (or_introl eq_refl)).
  pose proof (rank_nonneg (x :: t) x). lia.
Qed.
Lemma largest_rank X : X <> [] -> largest (qz (distinct X - 1)) (map qz (rankdata X)).
Proof.
  intros H. pose proof (distinct_pos X H). split.
  - destruct (rank_surj X (distinct X - 1)) as [v [Hv E]]; [lia|]. rewrite <- E. apply in_map.
    unfold rankdata. now apply in_map.
  - intros q Hq. apply in_map_iff in Hq as [k [<- Hk]]. apply in_map_iff in Hk as [x [<- Hx]].
    apply qz_le. apply rank_upper in Hx. lia.
Qed.

(** ** The value of a rank *)
Lemma value_of_rank_find X r d : value_of_rank (rankdata X) X r d =
  match find (fun x => dense_rank X x =? r) X with Some x => Fin x | None => d end.
Proof.
  unfold rankdata. generalize (dense_rank X) as f. intros f.
  induction X as [|x t IH]; cbn; [reflexivity|]. destruct (f x =? r); [reflexivity|apply IH].
Qed.
Lemma value_of_rank_some X r d : 0 <= r < distinct X ->
  exists v, value_of_rank (rankdata X) X r d = Fin v /\ In v X /\ dense_rank X v = r.
Proof.
  intros H. destruct (rank_surj X r H) as [v [Hv E]]. rewrite value_of_rank_find.
  destruct (find _ X) as [x|] eqn:F.
  - apply find_some in F as [F1 F2]. exists x. split; [reflexivity|]. split; [assumption|lia].
  - apply (find_none _ _ F) in Hv. lia.
Qed.
Lemma value_of_rank_none X r d : r < 0 \/ distinct X <= r -> value_of_rank (rankdata X) X r d = d.
Proof.
  intros H. rewrite value_of_rank_find. destruct (find _ X) as [x|] eqn:F; [|reflexivity].
  apply find_some in F as [F1 F2]. pose proof (rank_nonneg X x). pose proof (rank_upper X x F1). lia.
Qed.

(** ** Truncation *)
Lemma Qc_num_le k q : (qz k <= q)%Qc <-> k * Zpos (Qden q) <= Qnum q.
Proof. unfold Qcle. rewrite this_qz. unfold Qle. cbn. lia. Qed.
Lemma Qc_num_lt k q : (q < qz k)%Qc <-> Qnum q < k * Zpos (Qden q).
Proof. unfold Qclt. rewrite this_qz. unfold Qlt. cbn. lia. Qed.
Lemma qtrunc_pos q : (0 <= q)%Qc -> (qz (qtrunc q) <= q /\ q < qz (qtrunc q + 1))%Qc.
Proof.
  intros H. rewrite <- qz_0 in H. apply Qc_num_le in H.
  unfold qtrunc. rewrite Z.quot_div_nonneg by lia.
  pose proof (Z.div_mod (Qnum q) (Zpos (Qden q)) ltac:(lia)).
  pose proof (Z.mod_pos_bound (Qnum q) (Zpos (Qden q)) ltac:(lia)).
  split; [apply Qc_num_le|apply Qc_num_lt]; nia.
Qed.
Lemma qtrunc_neg q : (q < 0)%Qc -> (qz (-1) < q)%Qc -> qtrunc q = 0.
Proof.
  intros H L. rewrite <- qz_0 in H. apply Qc_num_lt in H.
  assert (L' : - Zpos (Qden q) < Qnum q).
  { destruct (Z_lt_le_dec (- Zpos (Qden q)) (Qnum q)) as [|G]; [assumption|].
    exfalso. assert (q <= qz (-1))%Qc. { unfold Qcle. rewrite this_qz. unfold Qle. cbn. lia. }
    eapply Qclt_not_le; eassumption. }
  unfold qtrunc. rewrite <- (Z.opp_involutive (Qnum q)), Z.quot_opp_l by lia.
  rewrite Z.quot_small by lia. reflexivity.
Qed.

(** ** The balanced cover *)
Section Balanced.
  Variables (p : cover_params) (X : list Qc).
  Hypothesis Hn : 1 <= n_intervals p.
  Hypothesis Hov : (0 < overlap_frac p /\ overlap_frac p < 1)%Qc.
  Hypothesis HX : X <> [].
  Let n := n_intervals p.
  Let ov := overlap_frac p.
  Let m := distinct X.
  Definition blo : Qc := (- qhalf)%Qc.
  Definition bhi : Qc := (qz (distinct X - 1) + qhalf)%Qc.
  Definition ba : Z -> Qc := aa n ov blo bhi.
  Definition bb_ : Z -> Qc := bb n ov blo bhi.
  Definition lrank (i : Z) : Z := if Qcleb 0 (ba i) then qtrunc (ba i) else -1.
  Definition rrank (i : Z) : Z :=
    if Qceqb (qz (qtrunc (bb_ i))) (bb_ i) then qtrunc (bb_ i) else qtrunc (bb_ i) + 1.
  Definition lval (i : Z) : fl := value_of_rank (rankdata X) X (lrank i) NInf.
  Definition rval (i : Z) : fl := value_of_rank (rankdata X) X (rrank i) PInf.

  Lemma qhalf2 : (qhalf + qhalf = 1)%Qc.
  Proof. apply Qc_is_canon. reflexivity. Qed.
  Lemma qhalf_pos : (0 < qhalf)%Qc.
  Proof. reflexivity. Qed.
  Lemma m_pos : 1 <= m.
  Proof. now apply distinct_pos. Qed.
  Lemma blo_bhi : (blo < bhi)%Qc.
  Proof.
    unfold blo, bhi. pose proof m_pos. pose proof qhalf_pos.
    assert (0 <= qz (distinct X - 1))%Qc by (rewrite <- qz_0; apply qz_le; unfold m in *; lia).
    revert H0 H1. generalize qhalf (qz (distinct X - 1)). intros. qlra.
  Qed.
  Lemma one_point : Qceqb blo (bhi - 1) = (m =? 1).
  Proof.
    unfold blo, bhi. fold m. apply eq_true_iff_eq. rewrite Qceqb_eq, Z.eqb_eq.
    pose proof qhalf2 as H2. split.
    - intros E. assert (E' : qz (m - 1) = qz 0).
      { rewrite qz_0. assert (qz (m - 1) = (qz (m - 1) + qhalf - 1) - qhalf + 1)%Qc as -> by ring.
        rewrite <- E. rewrite <- H2. ring. }
      apply qz_inj in E'. lia.
    - intros ->. change (1 - 1) with 0. rewrite qz_0, <- H2. ring.
  Qed.
  Lemma find_balanced : find_interval_limits (map qz (rankdata X)) n ov false =
    if (m =? 1) && (1 <? n) then Err ValueError
    else Ok (map Fin (tabZ n ba), map Fin (tabZ n bb_)).
  Proof.
    unfold find_interval_limits. rewrite (np_max_spec _ _ (largest_rank X HX)). fold bhi blo.
    cbv iota beta. rewrite one_point. destruct ((m =? 1) && (1 <? n)); [reflexivity|].
    rewrite (cover_limits_ok n ov); [reflexivity|exact Hn].
  Qed.

  Lemma ba_0 : ba 0 = blo.
  Proof. apply (aa_bb_spaced n ov Hn Hov blo bhi). Qed.
  Lemma bb_last : bb_ (n - 1) = bhi.
  Proof. apply (aa_bb_spaced n ov Hn Hov blo bhi). Qed.
  Lemma ba_bb i : bb_ i = (ba i + ilen n ov blo bhi)%Qc.
  Proof. reflexivity. Qed.
  Lemma len_pos : (0 < ilen n ov blo bhi)%Qc.
  Proof. apply (ilen_pos n ov Hn Hov). apply blo_bhi. Qed.
  Lemma ba_lt_bb i : (ba (i + 1) < bb_ i)%Qc.
  Proof. apply (aa_lt_bb n ov Hn Hov). apply blo_bhi. Qed.
  Lemma ba_mono i j : i <= j -> (ba i <= ba j)%Qc.
  Proof. apply (aa_le n ov Hn Hov). apply blo_bhi. Qed.
  Lemma bb_mono i j : i <= j -> (bb_ i <= bb_ j)%Qc.
  Proof.
    intros H. rewrite !ba_bb. apply ba_mono in H. revert H.
    generalize (ba i) (ba j) (ilen n ov blo bhi). intros. qlra.
  Qed.
  Lemma bhi_lt : (bhi < qz m)%Qc.
  Proof.
    unfold bhi. fold m. rewrite qz_sub, qz_1. pose proof qhalf_pos. pose proof qhalf2.
    revert H H0. generalize qhalf (qz m). intros. qlra.
  Qed.
  Lemma bhi_gt : (qz (m - 1) < bhi)%Qc.
  Proof.
    unfold bhi. fold m. pose proof qhalf_pos. revert H. generalize qhalf (qz (m - 1)). intros. qlra.
  Qed.
  Lemma ba_upper i : i < n -> (ba i < qz m)%Qc.
  Proof.
    intros Hi. apply Qclt_trans with bhi; [|apply bhi_lt]. rewrite <- bb_last.
    apply Qcle_lt_trans with (ba (n - 1)); [apply ba_mono; lia|]. rewrite ba_bb.
    pose proof len_pos. revert H. generalize (ba (n - 1)) (ilen n ov blo bhi). intros. qlra.
  Qed.
  Lemma bb_lower i : 0 <= i -> (qz (-1) < bb_ i)%Qc.
  Proof.
    intros Hi. rewrite ba_bb. pose proof len_pos. pose proof (ba_mono 0 i Hi). rewrite ba_0 in H0.
    assert (qz (-1) < blo)%Qc by reflexivity.
    revert H H0 H1. generalize (ba i) (ilen n ov blo bhi) blo (qz (-1)). intros. qlra.
  Qed.

  (** left limits *)
  Lemma lval_neg i : (ba i < 0)%Qc -> lval i = NInf.
  Proof.
    intros H. unfold lval, lrank. destruct (Qcleb_spec 0 (ba i)) as [L|L].
    - exfalso. eapply Qclt_not_le; eassumption.
    - apply value_of_rank_none. left. lia.
  Qed.
  Lemma lval_pos i : (0 <= ba i)%Qc -> i < n ->
    exists v k, lval i = Fin v /\ In v X /\ dense_rank X v = k /\ (qz k <= ba i)%Qc /\ (ba i < qz (k + 1))%Qc.
  Proof.
    intros H Hi. unfold lval, lrank. destruct (Qcleb_spec 0 (ba i)) as [L|L]; [|contradiction].
    destruct (qtrunc_pos _ H) as [H1 H2]. pose proof (ba_upper i Hi) as U.
    assert (R : 0 <= qtrunc (ba i) < distinct X).
    { split.
      - assert (0 < qtrunc (ba i) + 1); [|lia]. apply qz_lt. rewrite qz_0. eapply Qcle_lt_trans; eassumption.
      - apply qz_lt. eapply Qcle_lt_trans; eassumption. }
    destruct (value_of_rank_some X _ NInf R) as [v [E [Hv Hr]]]. exists v, (qtrunc (ba i)). auto.
  Qed.
  Lemma lval_mem i x : i < n -> In x X ->
    flt (lval i) (Fin x) = flt (Fin (ba i)) (Fin (qz (dense_rank X x))).
  Proof.
    intros Hi Hx. destruct (Qc_lt_le_dec (ba i) 0) as [H|H].
    - rewrite (lval_neg _ H). cbn. symmetry. apply Qcltb_lt.
      eapply Qclt_le_trans; [exact H|]. rewrite <- qz_0. apply qz_le. apply rank_nonneg.
    - destruct (lval_pos i H Hi) as [v [k [-> [Hv [Hr [H1 H2]]]]]]. cbn. apply eq_true_iff_eq.
      rewrite !Qcltb_lt, <- (rank_lt_iff X v x Hv Hx), Hr. split; intros L.
      + eapply Qclt_le_trans; [exact H2|]. apply qz_le. lia.
      + apply qz_lt. eapply Qcle_lt_trans; eassumption.
  Qed.

  (** right limits *)
  Lemma rrank_pos i : (0 <= bb_ i)%Qc -> (qz (rrank i - 1) < bb_ i)%Qc /\ (bb_ i <= qz (rrank i))%Qc.
  Proof.
    intros H. unfold rrank. destruct (qtrunc_pos _ H) as [H1 H2].
    destruct (Qceqb_spec (qz (qtrunc (bb_ i))) (bb_ i)) as [E|E].
    - split; [|rewrite E; apply Qcle_refl]. rewrite <- E at 2. apply qz_lt. lia.
    - split; [|now apply Qclt_le_weak].
      replace (qtrunc (bb_ i) + 1 - 1) with (qtrunc (bb_ i)) by lia.
      apply Qcle_lt_or_eq in H1 as [|]; [assumption|contradiction].
  Qed.
  Lemma rrank_neg i : 0 <= i -> (bb_ i < 0)%Qc -> rrank i = 1.
  Proof.
    intros Hi H. unfold rrank. rewrite (qtrunc_neg _ H (bb_lower i Hi)).
    destruct (Qceqb_spec (qz 0) (bb_ i)) as [E|E]; [|reflexivity].
    rewrite <- E, qz_0 in H. now apply Qclt_not_eq in H.
  Qed.
  Lemma rval_big i : (qz (m - 1) < bb_ i)%Qc -> rval i = PInf.
  Proof.
    intros H. unfold rval. apply value_of_rank_none. right. fold m.
    assert (H0 : (0 <= bb_ i)%Qc).
    { apply Qclt_le_weak. eapply Qcle_lt_trans; [|exact H]. rewrite <- qz_0. apply qz_le. pose proof m_pos. lia. }
    destruct (rrank_pos i H0) as [H1 H2].
    assert (m - 1 < rrank i); [|lia]. apply qz_lt. eapply Qclt_le_trans; eassumption.
  Qed.
  Lemma rval_small i : 0 <= i -> (0 <= bb_ i)%Qc -> (bb_ i <= qz (m - 1))%Qc ->
    exists v k, rval i = Fin v /\ In v X /\ dense_rank X v = k /\ (qz (k - 1) < bb_ i)%Qc /\ (bb_ i <= qz k)%Qc.
  Proof.
    intros Hi H0 H. destruct (rrank_pos i H0) as [H1 H2].
    assert (R : 0 <= rrank i < distinct X).
    { split.
      - apply qz_le. rewrite qz_0. eapply Qcle_trans; eassumption.
      - fold m. assert (rrank i - 1 < m - 1); [|lia]. apply qz_lt. eapply Qclt_le_trans; eassumption. }
    destruct (value_of_rank_some X _ PInf R) as [v [E [Hv Hr]]]. exists v, (rrank i). auto.
  Qed.
  Lemma rval_mem i x : 0 <= i -> In x X -> (0 <= bb_ i)%Qc ->
    flt (Fin x) (rval i) = flt (Fin (qz (dense_rank X x))) (Fin (bb_ i)).
  Proof.
    intros Hi Hx H0. destruct (Qc_lt_le_dec (qz (m - 1)) (bb_ i)) as [H|H].
    - rewrite (rval_big _ H). cbn. symmetry. apply Qcltb_lt.
      eapply Qcle_lt_trans; [|exact H]. apply qz_le. pose proof (rank_upper X x Hx). fold m in H1. lia.
    - destruct (rval_small i Hi H0 H) as [v [k [-> [Hv [Hr [H1 H2]]]]]]. cbn. apply eq_true_iff_eq.
      rewrite !Qcltb_lt, <- (rank_lt_iff X x v Hx Hv), Hr. split; intros L.
      + eapply Qcle_lt_trans; [|exact H1]. apply qz_le. lia.
      + apply qz_lt. eapply Qclt_le_trans; eassumption.
  Qed.
  Lemma rval_mem_neg i x : 2 <= m -> 0 <= i -> In x X -> (bb_ i < 0)%Qc ->
    exists v, rval i = Fin v /\ In v X /\ dense_rank X v = 1 /\
    flt (Fin x) (rval i) = (dense_rank X x =? 0).
  Proof.
    intros Hm Hi Hx H. unfold rval. rewrite (rrank_neg i Hi H).
    destruct (value_of_rank_some X 1 PInf) as [v [E [Hv Hr]]]; [fold m; lia|].
    exists v. rewrite E. repeat split; try assumption. cbn.
    apply eq_true_iff_eq. rewrite Qcltb_lt, Z.eqb_eq, <- (rank_lt_iff X x v Hx Hv), Hr.
    pose proof (rank_nonneg X x). lia.
  Qed.

  Lemma fit_balanced_ok : fit_balanced p X =
    if (m =? 1) && (1 <? n) then Err ValueError else Ok (tabZ n lval, tabZ n rval).
  Proof.
    unfold fit_balanced. fold n ov. rewrite find_balanced.
    destruct ((m =? 1) && (1 <? n)); [reflexivity|]. cbn [bind].
    rewrite !tabZ_map. cbn [fl_val]. unfold limits_from_ranks. rewrite !tabZ_map, !set_at_tabZ.
    rewrite zlen_tabZ by (unfold n; lia). do 2 f_equal.
    - apply tabZ_ext. intros i Hi. destruct (Z.eqb_spec i 0) as [->|]; [|reflexivity].
      symmetry. apply lval_neg. rewrite ba_0. reflexivity.
    - apply tabZ_ext. intros i Hi. destruct (Z.eqb_spec i (n - 1)) as [->|]; [|reflexivity].
      symmetry. apply rval_big. rewrite bb_last. apply bhi_gt.
  Qed.
  Definition rank_col (i : Z) : list bool :=
    map (fun x => flt (Fin (ba i)) (Fin (qz (dense_rank X x))) && flt (Fin (qz (dense_rank X x))) (Fin (bb_ i))) X.
  Definition val_col (i : Z) : list bool :=
    map (fun x => flt (lval i) (Fin x) && flt (Fin x) (rval i)) X.
  Lemma fit_transform_balanced_ok : fit_transform_balanced p X =
    if (m =? 1) && (1 <? n) then Err ValueError else Ok (tabZ n rank_col).
  Proof.
    unfold fit_transform_balanced. fold n ov. rewrite find_balanced.
    destruct ((m =? 1) && (1 <? n)); [reflexivity|]. cbn [bind]. f_equal.
    unfold cover_masks. cbn [fst snd]. rewrite !tabZ_map, combine_tabZ, tabZ_map. apply tabZ_ext. intros i Hi.
    cbn [fst snd]. unfold rank_col, rankdata. rewrite !map_map. reflexivity.
  Qed.
  Lemma masks_balanced : cover_masks (tabZ n lval, tabZ n rval) X = tabZ n val_col.
  Proof. unfold cover_masks. cbn [fst snd]. now rewrite combine_tabZ, tabZ_map. Qed.

  Hypothesis Hok : 2 <= m \/ n = 1.
  Lemma neg_two i : 0 <= i < n -> (bb_ i < 0)%Qc -> 2 <= m.
  Proof.
    intros Hi H. destruct Hok as [|E]; [assumption|]. replace i with (n - 1) in H by lia.
    rewrite bb_last in H. exfalso. pose proof bhi_gt as G. pose proof m_pos as M.
    apply (Qclt_not_le _ _ H). apply Qclt_le_weak. eapply Qcle_lt_trans; [|exact G].
    rewrite <- qz_0. apply qz_le. lia.
  Qed.
  Lemma val_rank_col i : 0 <= i < n -> (0 <= bb_ i)%Qc -> val_col i = rank_col i.
  Proof.
    intros Hi H. apply map_ext_in. intros x Hx.
    rewrite lval_mem, rval_mem by (assumption || lia). reflexivity.
  Qed.
  Definition low_col : list bool := map (fun x => dense_rank X x =? 0) X.
  Lemma val_low i : 0 <= i < n -> (bb_ i < 0)%Qc -> val_col i = low_col.
  Proof.
    intros Hi H. apply map_ext_in. intros x Hx.
    destruct (rval_mem_neg i x (neg_two i Hi H) ltac:(lia) Hx H) as [v [_ [_ [_ ->]]]].
    rewrite lval_neg; [reflexivity|]. eapply Qclt_trans; [|exact H]. rewrite ba_bb.
    pose proof len_pos. revert H0. generalize (ba i) (ilen n ov blo bhi). intros. qlra.
  Qed.
  Lemma rank_empty i : (bb_ i <= 0)%Qc -> ~ In true (rank_col i).
  Proof.
    intros H Ht. apply in_map_iff in Ht as [x [E Hx]]. apply andb_true_iff in E as [_ E].
    cbn in E. apply Qcltb_lt in E. apply (Qclt_not_le _ _ E). eapply Qcle_trans; [exact H|].
    rewrite <- qz_0. apply qz_le. apply rank_nonneg.
  Qed.
  Lemma low_nonempty : In true low_col.
  Proof.
    destruct (rank_surj X 0) as [v [Hv E]]; [pose proof m_pos; unfold m in *; lia|].
    apply in_map_iff. exists v. split; [lia|assumption].
  Qed.
  Lemma rank_low i : (ba i < 0)%Qc -> (0 < bb_ i)%Qc -> (bb_ i <= 1)%Qc -> rank_col i = low_col.
  Proof.
    intros Ha Hb Hb'. apply map_ext. intros x. pose proof (rank_nonneg X x).
    apply eq_true_iff_eq. cbn. rewrite andb_true_iff, !Qcltb_lt, Z.eqb_eq. split.
    - intros [_ L]. assert (dense_rank X x < 1); [|lia]. apply qz_lt. rewrite qz_1.
      eapply Qclt_le_trans; eassumption.
    - intros ->. rewrite qz_0. auto.
  Qed.

  (** Positions from [i] on. *)
  Fixpoint zfrom (i : Z) (k : nat) : list Z :=
    match k with O => [] | S k => i :: zfrom (i + 1) k end.
  Lemma zfrom_seq k i : zfrom i k = map (fun j => i + Z.of_nat j) (seq 0 k).
  Proof.
    revert i; induction k as [|k IH]; intros i; [reflexivity|]. cbn [zfrom seq map]. f_equal; [lia|].
    rewrite IH, <- seq_shift, map_map. apply map_ext. intros. lia.
  Qed.
  Lemma tab_zfrom {A} (f : Z -> A) : tabZ n f = map f (zfrom 0 (Z.to_nat n)).
  Proof. rewrite zfrom_seq, map_map. reflexivity. Qed.
  Lemma cols_eq k i : 0 <= i -> i + Z.of_nat k = n -> (0 <= bb_ i)%Qc ->
    map val_col (zfrom i k) = map rank_col (zfrom i k).
  Proof.
    intros Hi Hk H. apply map_ext_in. intros j Hj. rewrite zfrom_seq in Hj.
    apply in_map_iff in Hj as [t [<- Ht]]. apply in_seq in Ht.
    apply val_rank_col; [lia|]. eapply Qcle_trans; [exact H|]. apply bb_mono. lia.
  Qed.
  Lemma cols_lead k i : (1 <= k)%nat -> 0 <= i -> i + Z.of_nat k = n ->
    (ba i < 0)%Qc -> (ilen n ov blo bhi <= 1)%Qc ->
    lead low_col (map val_col (zfrom i k)) (map rank_col (zfrom i k)).
  Proof.
    revert i; induction k as [|k IH]; intros i Hk0 Hi Hk Ha Hl; [lia|].
    destruct (Qc_lt_le_dec 0 (bb_ i)) as [Hb|Hb].
    - rewrite (cols_eq (S k) i Hi Hk (Qclt_le_weak _ _ Hb)). cbn [zfrom map].
      rewrite rank_low; [apply lead_here, low_nonempty|assumption|assumption|].
      rewrite ba_bb. revert Ha Hl. generalize (ba i) (ilen n ov blo bhi). intros. qlra.
    - destruct k as [|k].
      { exfalso. replace i with (n - 1) in Hb by lia. rewrite bb_last in Hb. pose proof bhi_gt. pose proof m_pos.
        apply (Qcle_not_lt _ _ Hb). eapply Qcle_lt_trans; [|exact H]. rewrite <- qz_0. apply qz_le. lia. }
      cbn [zfrom map]. pose proof (rank_empty i Hb) as He.
      assert (L : lead low_col (map val_col (zfrom (i + 1) (S k))) (map rank_col (zfrom (i + 1) (S k)))).
      { apply IH; try lia; [|assumption]. eapply Qclt_le_trans; [apply ba_lt_bb|assumption]. }
      cbn [zfrom map] in L.
      apply Qcle_lt_or_eq in Hb as [Hb|Hb].
      + rewrite (val_low i) by (assumption || lia). now apply lead_step.
      + rewrite (val_rank_col i) by (lia || (rewrite Hb; apply Qcle_refl)). now apply lead_empty.
  Qed.
  Lemma balanced_keep : keep [] (tabZ n val_col) = keep [] (tabZ n rank_col).
  Proof.
    rewrite !tab_zfrom. destruct (Qc_lt_le_dec (bb_ 0) 0) as [H|H].
    - assert (Hl : (ilen n ov blo bhi <= 1)%Qc).
      2:{ apply (lead_keep low_col _ _ (cols_lead (Z.to_nat n) 0 ltac:(unfold n; lia) ltac:(lia) ltac:(unfold n; lia)
         ltac:(rewrite ba_0; reflexivity) Hl) []). intros []. }
      rewrite ba_bb, ba_0 in H. unfold blo in *. pose proof qhalf2. pose proof qhalf_pos. revert H H0 H1.
      generalize (ilen n ov (- qhalf) bhi) qhalf. intros. qlra.
    - f_equal. apply cols_eq; [lia|lia|assumption].
  Qed.

  Lemma balanced_covers_line x : exists i, In i (combine (tabZ n lval) (tabZ n rval)) /\ inside i x.
  Proof.
    destruct (chain_cover n lval rval x) as [i [Hi Hx]].
    - exact Hn.
    - apply lval_neg. rewrite ba_0. reflexivity.
    - apply rval_big. rewrite bb_last. apply bhi_gt.
    - intros i Hi. pose proof (ba_lt_bb i) as L. destruct (Qc_lt_le_dec (ba (i + 1)) 0) as [H|H].
      + rewrite (lval_neg _ H). unfold rval. rewrite value_of_rank_find.
        destruct (find _ X); reflexivity.
      + destruct (lval_pos (i + 1) H ltac:(lia)) as [v [k [-> [Hv [Hr [H1 H2]]]]]].
        assert (H0 : (0 <= bb_ i)%Qc) by (apply Qclt_le_weak; eapply Qcle_lt_trans; eassumption).
        destruct (Qc_lt_le_dec (qz (m - 1)) (bb_ i)) as [G|G]; [now rewrite (rval_big _ G)|].
        destruct (rval_small i ltac:(lia) H0 G) as [w [j [-> [Hw [Hs [H3 H4]]]]]]. cbn. apply Qcltb_lt.
        apply (rank_lt_iff X v w Hv Hw). rewrite Hr, Hs. apply qz_lt.
        eapply Qcle_lt_trans; [exact H1|]. exact (Qclt_le_trans _ _ _ L H4).
    - exists (lval i, rval i). split; [|assumption]. rewrite combine_tabZ. apply In_tabZ. eauto.
  Qed.
  Lemma balanced_is_cover : balanced_cover X n ov (combine (tabZ n lval) (tabZ n rval)).
  Proof.
    exists m, (nodup Qc_eq_dec X), ba, bb_. split; [apply NoDup_nodup|].
    split; [intros; apply nodup_In|]. split; [reflexivity|]. split.
    - replace (qz m - Q2Qc (1 # 2))%Qc with bhi; [apply (aa_bb_spaced n ov Hn Hov)|].
      unfold bhi. fold m. rewrite qz_sub, qz_1, <- qhalf2. unfold qhalf. ring.
    - rewrite combine_tabZ. split; [apply zlen_tabZ; unfold n; lia|]. intros i Hi.
      exists (lval i), (rval i). split; [now rewrite Znth_tabZ|]. split.
      + destruct (Qc_lt_le_dec (ba i) 0) as [H|H]; [right; split; [now apply lval_neg|assumption]|left].
        destruct (lval_pos i H ltac:(lia)) as [v [k [E [Hv [Hr [H1 H2]]]]]]. exists v, k.
        repeat split; try assumption. rewrite <- Hr. apply dense_rank_is.
      + destruct (Qc_lt_le_dec (qz (m - 1)) (bb_ i)) as [G|G]; [right; left; split; [now apply rval_big|assumption]|].
        destruct (Qc_lt_le_dec (bb_ i) 0) as [H|H].
        * right; right. destruct (rank_surj X 0) as [y [Hy _]]; [pose proof m_pos; unfold m in *; lia|].
          destruct (rval_mem_neg i y (neg_two i Hi H) ltac:(lia) Hy H) as [v [E [Hv [Hr _]]]].
          exists v. split; [assumption|]. split; [|assumption]. split; [assumption|]. rewrite <- Hr. apply dense_rank_is.
        * left. destruct (rval_small i ltac:(lia) H G) as [v [k [E [Hv [Hr [H1 H2]]]]]]. exists v, k.
          repeat split; try assumption. rewrite <- Hr. apply dense_rank_is.
  Qed.
End Balanced.
