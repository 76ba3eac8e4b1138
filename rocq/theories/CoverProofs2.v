(** Lemmas about the limits of one-dimensional covers. *)
From Coq Require Import Permutation Sorted Field.
From Verif Require Import Np NpFacts Fl FlFacts DiagModel VecModel CoverModel CoverSpec CoverProofs.
Open Scope Z_scope.

Lemma above_flt a x : above a x <-> flt a (Fin x) = true.
Proof.
  destruct a; cbn; try (split; [easy|discriminate]); try tauto.
  symmetry. apply Qcltb_lt.
Qed.
Lemma below_flt b x : below x b <-> flt (Fin x) b = true.
Proof.
  destruct b; cbn; try (split; [easy|discriminate]); try tauto.
  symmetry. apply Qcltb_lt.
Qed.
Lemma inside_flt I x : inside I x <-> flt (fst I) (Fin x) && flt (Fin x) (snd I) = true.
Proof. unfold inside. rewrite above_flt, below_flt, andb_true_iff. reflexivity. Qed.
Lemma cover_masks_describe I X :
  describes (inside I) X (map (fun x => flt (fst I) (Fin x) && flt (Fin x) (snd I)) X).
Proof.
  unfold describes. induction X; cbn; constructor; [|assumption]. symmetry. apply inside_flt.
Qed.

(** A chain of overlapping intervals from -inf to +inf covers the line. *)
Lemma chain_cover n (l r : Z -> fl) x :
  1 <= n -> l 0 = NInf -> r (n - 1) = PInf ->
  (forall i, 0 <= i < n - 1 -> flt (l (i + 1)) (r i) = true) ->
  exists i, 0 <= i < n /\ inside (l i, r i) x.
Proof.
  intros Hn H0 H1 Hc.
  assert (G : forall k, 0 <= k -> forall i, i = n - 1 - k -> 0 <= i -> above (l i) x ->
            exists j, 0 <= j < n /\ inside (l j, r j) x).
  { intros k Hk. pattern k. revert k Hk. apply natlike_ind.
    - intros i -> Hi Ha. exists (n - 1). split; [lia|]. split; cbn [fst snd].
      + now replace (n - 1 - 0) with (n - 1) in Ha by lia.
      + now rewrite H1.
    - intros k Hk IH i -> Hi Ha.
      destruct (flt (Fin x) (r (n - 1 - Z.succ k))) eqn:E.
      + exists (n - 1 - Z.succ k). split; [lia|]. split; [assumption|]. now apply below_flt.
      + apply (IH (n - 1 - k)); [reflexivity|lia|]. apply above_flt.
        specialize (Hc (n - 1 - Z.succ k)).
        replace (n - 1 - Z.succ k + 1) with (n - 1 - k) in Hc by lia.
        assert (Hc' := Hc ltac:(lia)). apply flt_false in E; [|reflexivity|].
        * eapply flt_fle_trans; eassumption.
        * now apply flt_nan in Hc'. }
  apply (G (n - 1) ltac:(lia) 0); [lia|lia|]. now rewrite H0.
Qed.

(** Lists given by functions on positions. *)
Lemma set_at_tabZ {A} n (f : Z -> A) k v :
  set_at (tabZ n f) k v = tabZ n (fun i => if i =? k then v else f i).
Proof.
  apply Znth_ext; rewrite zlen_set_at, !zlen_tabZ_max; [reflexivity|]. intros i Hi.
  rewrite Znth_set_at, !Znth_tabZ by lia. destruct (i =? k); reflexivity.
Qed.
Lemma combine_tabZ {A B} n (f : Z -> A) (g : Z -> B) :
  combine (tabZ n f) (tabZ n g) = tabZ n (fun i => (f i, g i)).
Proof.
  unfold tabZ. induction (seq 0 (Z.to_nat n)); cbn; [reflexivity|]. now f_equal.
Qed.

Lemma Qcmult_lt_0_compat x y : (0 < x -> 0 < y -> 0 < x * y)%Qc.
Proof. intros. qnra. Qed.

(** ** _cover_limits *)
Section Limits.
  Variables (n : Z) (ov : Qc).
  Hypothesis Hn : 1 <= n.
  Hypothesis Hov : (0 < ov /\ ov < 1)%Qc.
  Variables lo hi : Qc.

  Definition ilen : Qc := ((hi - lo) / (qz n - qz (n - 1) * ov))%Qc.
  Definition aa (i : Z) : Qc := (lo + qz i * (1 - ov) * ilen)%Qc.
  Definition bb (i : Z) : Qc := (aa i + ilen)%Qc.

  Lemma denom_pos : (0 < qz n - qz (n - 1) * ov)%Qc.
  Proof.
    destruct Hov as [H0 H1].
    assert (0 <= qz (n - 1))%Qc by (rewrite <- qz_0; apply qz_le; lia).
    rewrite qz_sub, qz_1 in *. qnra.
  Qed.
  Lemma denom_nz : (qz n - qz (n - 1) * ov <> 0)%Qc.
  Proof. pose proof denom_pos as H. intros E. rewrite E in H. now apply Qclt_not_eq in H. Qed.
  Lemma ilen_pos : (lo < hi)%Qc -> (0 < ilen)%Qc.
  Proof.
    intros H. unfold ilen, Qcdiv. apply Qcmult_lt_0_compat.
    - qlra.
    - pose proof denom_pos as D. revert D. generalize (qz n - qz (n - 1) * ov)%Qc. intros d D.
      destruct (Qc_lt_le_dec 0 (/ d)) as [|L]; [assumption|exfalso].
      assert (d * / d = 1)%Qc by (apply Qcmult_inv_r; intros E; rewrite E in D; now apply Qclt_not_eq in D).
      revert L H0. generalize (/ d)%Qc. intros e L E. qnra.
  Qed.
  Lemma cover_limits_ok : cover_limits lo hi n ov = (tabZ n aa, tabZ n bb).
  Proof.
    unfold cover_limits. fold ilen.
    assert (E : fst (linspace lo (lo + qz (n - 1) * (1 - ov) * ilen) n) = tabZ n aa).
    { unfold linspace. destruct (Z.eqb_spec n 1) as [E|E]; cbn [fst].
      - rewrite E. change (tabZ 1 aa) with [aa 0]. f_equal. unfold aa. rewrite qz_0. ring.
      - apply tabZ_ext. intros i Hi. unfold aa. field.
        rewrite <- qz_0. intros F. apply qz_inj in F. lia. }
    rewrite E. f_equal. rewrite tabZ_map. reflexivity.
  Qed.
  Lemma aa_bb_spaced : evenly_spaced lo hi n ov aa bb.
  Proof.
    split; [|split].
    - unfold aa. rewrite qz_0. ring.
    - unfold bb, aa. unfold ilen. pose proof denom_nz. rewrite qz_sub, qz_1 in *. field. assumption.
    - exists ilen. split; intros i Hi.
      + unfold bb. ring.
      + unfold bb, aa. rewrite qz_add, qz_1. ring.
  Qed.
  Lemma aa_lt_bb i : (lo < hi)%Qc -> (aa (i + 1) < bb i)%Qc.
  Proof.
    intros H. pose proof (ilen_pos H). destruct Hov. unfold bb, aa. rewrite qz_add, qz_1.
    assert (0 < ov * ilen)%Qc by now apply Qcmult_lt_0_compat.
    revert H1. generalize (ov * ilen)%Qc as e.
    intros. assert (E : (lo + (qz i + 1) * (1 - ov) * ilen = lo + qz i * (1 - ov) * ilen + ilen - ov * ilen)%Qc) by ring.
    rewrite E. generalize (lo + qz i * (1 - ov) * ilen)%Qc. intros.
    assert (0 < ov * ilen)%Qc by now apply Qcmult_lt_0_compat. revert H4. generalize (ov * ilen)%Qc.
    intros. qlra.
  Qed.
  Lemma aa_le i j : (lo < hi)%Qc -> i <= j -> (aa i <= aa j)%Qc.
  Proof.
    intros H L. pose proof (ilen_pos H). destruct Hov. unfold aa.
    assert (E : (lo + qz j * (1 - ov) * ilen = lo + qz i * (1 - ov) * ilen + qz (j - i) * ((1 - ov) * ilen))%Qc)
      by (rewrite qz_sub; ring).
    rewrite E.
    assert (0 <= qz (j - i))%Qc by (rewrite <- qz_0; apply qz_le; lia).
    assert (0 < (1 - ov) * ilen)%Qc by (apply Qcmult_lt_0_compat; [qlra|assumption]).
    revert H3 H4. generalize (qz (j - i)) ((1 - ov) * ilen)%Qc (lo + qz i * (1 - ov) * ilen)%Qc. intros. qnra.
  Qed.
End Limits.

(** ** np.min, np.max *)
Lemma qmin_list_spec x l : least (qmin_list x l) (x :: l).
Proof.
  revert x; induction l as [|y t IH]; intros x; cbn [qmin_list].
  - split; [now left|]. intros z [->|[]]. apply Qcle_refl.
  - destruct (Qcleb_spec x y) as [L|L].
    + destruct (IH x) as [H1 H2]. split; [destruct H1 as [<-|]; [now left|right; now right]|].
      intros z [->|[->|H]]; [apply H2; now left| |apply H2; now right].
      eapply Qcle_trans; [apply H2; now left|assumption].
    + apply Qcnle in L. apply Qclt_le_weak in L.
      destruct (IH y) as [H1 H2]. split; [now right|].
      intros z [->|[->|H]]; [|apply H2; now left|apply H2; now right].
      eapply Qcle_trans; [apply H2; now left|assumption].
Qed.
Lemma qmax_list_spec x l : largest (qmax_list x l) (x :: l).
Proof.
  revert x; induction l as [|y t IH]; intros x; cbn [qmax_list].
  - split; [now left|]. intros z [->|[]]. apply Qcle_refl.
  - destruct (Qcleb_spec x y) as [L|L].
    + destruct (IH y) as [H1 H2]. split; [now right|].
      intros z [->|[->|H]]; [|apply H2; now left|apply H2; now right].
      eapply Qcle_trans; [eassumption|apply H2; now left].
    + apply Qcnle in L. apply Qclt_le_weak in L.
      destruct (IH x) as [H1 H2]. split; [destruct H1 as [<-|]; [now left|right; now right]|].
      intros z [->|[->|H]]; [apply H2; now left| |apply H2; now right].
      eapply Qcle_trans; [eassumption|apply H2; now left].
Qed.
Lemma least_unique a b X : least a X -> least b X -> a = b.
Proof. intros [A1 A2] [B1 B2]. apply Qcle_antisym; auto. Qed.
Lemma largest_unique a b X : largest a X -> largest b X -> a = b.
Proof. intros [A1 A2] [B1 B2]. apply Qcle_antisym; auto. Qed.
Lemma np_min_spec X lo : least lo X -> np_min X = lo.
Proof.
  intros H. destruct X as [|x t]; [now destruct H|]. eapply least_unique; [|exact H]. apply qmin_list_spec.
Qed.
Lemma np_max_spec X lo : largest lo X -> np_max X = lo.
Proof.
  intros H. destruct X as [|x t]; [now destruct H|]. eapply largest_unique; [|exact H]. apply qmax_list_spec.
Qed.

(** ** The uniform cover *)
Lemma fit_uniform_ok p X lo hi :
  1 <= n_intervals p -> (0 < overlap_frac p /\ overlap_frac p < 1)%Qc ->
  least lo X -> largest hi X ->
  let n := n_intervals p in let ov := overlap_frac p in
  fit_uniform p X =
    if Qceqb lo hi && (1 <? n) then Err ValueError
    else Ok (tabZ n (fun i => if i =? 0 then NInf else Fin (aa n ov lo hi i)),
             tabZ n (fun i => if i =? n - 1 then PInf else Fin (bb n ov lo hi i))).
Proof.
  intros Hn Hov Hlo Hhi n ov. unfold fit_uniform, find_interval_limits.
  rewrite (np_min_spec _ _ Hlo), (np_max_spec _ _ Hhi). cbv iota beta.
  destruct (Qceqb lo hi && (1 <? n)) eqn:E; [unfold n in E; now rewrite E|].
  unfold n in E. rewrite E. rewrite (cover_limits_ok _ _ Hn).
  rewrite !tabZ_map, !set_at_tabZ, zlen_tabZ by lia. reflexivity.
Qed.
Lemma uniform_is_cover n ov lo hi :
  1 <= n -> (0 < ov /\ ov < 1)%Qc ->
  uniform_cover lo hi n ov
    (combine (tabZ n (fun i => if i =? 0 then NInf else Fin (aa n ov lo hi i)))
             (tabZ n (fun i => if i =? n - 1 then PInf else Fin (bb n ov lo hi i)))).
Proof.
  intros Hn Hov. exists (aa n ov lo hi), (bb n ov lo hi). split; [now apply aa_bb_spaced|].
  rewrite combine_tabZ. split; [now rewrite zlen_tabZ by lia|]. intros i Hi. now rewrite Znth_tabZ.
Qed.

(** evenly_spaced determines its functions. *)
Lemma evenly_spaced_unique lo hi n ov a b :
  1 <= n -> (0 < ov /\ ov < 1)%Qc -> evenly_spaced lo hi n ov a b ->
  forall i, 0 <= i < n -> a i = aa n ov lo hi i /\ b i = bb n ov lo hi i.
Proof.
  intros Hn Hov [H0 [H1 [len [Hl Hs]]]].
  assert (A : forall i, 0 <= i -> i < n -> a i = (lo + qz i * (1 - ov) * len)%Qc).
  { intros i Hi. pattern i. revert i Hi. apply natlike_ind.
    - intros _. rewrite H0, qz_0. ring.
    - intros i Hi IH Hi'. specialize (IH ltac:(lia)). specialize (Hl i ltac:(lia)).
      specialize (Hs i ltac:(lia)). change (Z.succ i) with (i + 1). rewrite qz_add, qz_1.
      assert (E : (a (i + 1)%Z = a i + (b i - a i) - (b i - a (i + 1)%Z))%Qc) by ring.
      rewrite E, Hl, Hs, IH. ring. }
  assert (len = ilen n ov lo hi) as ->.
  { specialize (Hl (n - 1) ltac:(lia)). rewrite H1, A in Hl by lia.
    pose proof (denom_nz n ov Hn Hov) as D. unfold ilen.
    assert (E : ((hi - lo) = len * (qz n - qz (n - 1) * ov))%Qc).
    { assert (hi - lo = (hi - (lo + qz (n - 1) * (1 - ov) * len)) + qz (n - 1) * (1 - ov) * len)%Qc as -> by ring.
      rewrite Hl. rewrite qz_sub, qz_1. ring. }
    rewrite E. field. assumption. }
  intros i Hi. split.
  - rewrite A by lia. reflexivity.
  - unfold bb. specialize (Hl i Hi). rewrite <- Hl at 1. unfold aa. rewrite <- A by lia. ring.
Qed.
Lemma uniform_covers_line lo hi n ov I x :
  1 <= n -> (0 < ov /\ ov < 1)%Qc -> (lo < hi)%Qc \/ n = 1 ->
  uniform_cover lo hi n ov I -> exists i, In i I /\ inside i x.
Proof.
  intros Hn Hov Hlt [a [b [E [L H]]]].
  destruct (chain_cover n (fun i => if i =? 0 then NInf else Fin (a i))
              (fun i => if i =? n - 1 then PInf else Fin (b i)) x) as [i [Hi Hx]];
    [assumption|reflexivity|now rewrite Z.eqb_refl| |].
  - intros i Hi. replace (i + 1 =? 0) with false by lia. replace (i =? n - 1) with false by lia.
    cbn. apply Qcltb_lt. destruct Hlt as [Hlt|]; [|lia].
    pose proof (evenly_spaced_unique _ _ _ _ _ _ Hn Hov E) as U.
    rewrite (proj1 (U (i + 1) ltac:(lia))), (proj2 (U i ltac:(lia))). now apply aa_lt_bb.
  - eexists. split; [|exact Hx]. eapply Znth_In_. exact (H i Hi).
Qed.
