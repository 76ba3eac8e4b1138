(** Corollaries: rectangularity, validity, splitting, scaling. *)
From Coq Require Import Permutation Sorted.
From Verif Require Import Np NpFacts Fl FlFacts TSProofs DiagTypes DiagModel DiagSpec DiagProofs DiagProofs2.
Open Scope Z_scope.

Lemma map_repeat {A B} (f : A -> B) x n : map f (repeat x n) = repeat (f x) n.
Proof. induction n; simpl; [reflexivity|]. now rewrite IHn. Qed.
Lemma map_const_repeat {A B} (f : A -> B) (c : B) l : (forall x, In x l -> f x = c) -> map f l = repeat c (length l).
Proof. induction l; intros H; simpl; [reflexivity|]. rewrite H by now left. f_equal. apply IHl. intros; apply H; now right. Qed.
Lemma padded_pq n m q k : zlen k <= n -> (forall p, In p k -> pq p = q) ->
  map pq (padded n m q k) = repeat q (Z.to_nat n).
Proof.
  intros H Hq. unfold padded, diag_rows. rewrite map_app, map_repeat. cbn [pq].
  rewrite (map_const_repeat pq q k Hq), <- repeat_app. f_equal. unfold zlen in *. lia.
Qed.
Lemma zlen_padded n m q k : zlen k <= n -> zlen (padded n m q k) = n.
Proof. intros H. unfold padded, diag_rows. rewrite zlen_app, zlen_repeat. lia. Qed.

Lemma nontrivial_rows_pq reduced i d dim p : In p (nontrivial_rows reduced i d dim) ->
  pq p = fz dim /\ flt (pb p) (pd p) = true.
Proof.
  unfold nontrivial_rows. intros H. apply filter_In in H. destruct H as [H1 H2]. split; [|assumption].
  apply in_map_iff in H1. destruct H1 as [bd [<- _]]. reflexivity.
Qed.

Lemma flt_asym a b : flt a b = true -> flt b a = false.
Proof.
  intros H. destruct (flt b a) eqn:E; [|reflexivity]. assert (F := flt_trans _ _ _ H E). now rewrite flt_irrefl in F.
Qed.
Lemma flt_of_fle a b : fle a b = true -> flt b a = false.
Proof. intros H. destruct (flt b a) eqn:E; [|reflexivity]. apply flt_not_fle in E. congruence. Qed.

Lemma in_combine3 {A B C} (l : list A) (r : list B) (s : list C) x :
  In x (combine l (combine r s)) ->
  exists k, Znth l k = Some (fst x) /\ Znth r k = Some (fst (snd x)) /\ Znth s k = Some (snd (snd x)).
Proof.
  intros H. apply In_Znth in H. destruct H as [k [Hk H]]. exists k.
  assert (Hk2 : k < zlen l /\ k < zlen r /\ k < zlen s).
  { unfold zlen in *. rewrite !combine_length in Hk. lia. }
  destruct (Znth_ex l k ltac:(lia)) as [a Ha]. destruct (Znth_ex r k ltac:(lia)) as [b Hb].
  destruct (Znth_ex s k ltac:(lia)) as [c Hc].
  assert (E := Znth_combine _ _ _ _ _ Ha (Znth_combine _ _ _ _ _ Hb Hc)). rewrite H in E. injection E as ->.
  cbn [fst snd]. auto.
Qed.

(** common shape of post-processed and filtered rows *)
Lemma rows_of_app q a b : rows_of q (a ++ b) = rows_of q a ++ rows_of q b.
Proof. apply filter_app. Qed.
Lemma zlen_rows_of_pq q x y : map pq x = map pq y -> zlen (rows_of q x) = zlen (rows_of q y).
Proof.
  revert y; induction x as [|p x IH]; intros [|r y] H; try discriminate; [reflexivity|].
  cbn [map] in H. injection H as E H. unfold rows_of. cbn [filter]. rewrite E. fold (rows_of q x) (rows_of q y).
  destruct (feq (pq r) q); rewrite ?zlen_cons, (IH y H); reflexivity.
Qed.

Lemma postprocess_valid junk Xt0 dims i reduced R :
  Xt0 <> [] -> dims <> [] -> (forall d dim, In d Xt0 -> In dim dims -> has_dimension d dim) ->
  postprocess_diagrams junk Xt0 dims i reduced = Ok R ->
  exists N, 1 <= N /\ zlen R = zlen Xt0 /\ (forall x, In x R -> zlen x = N) /\
    (forall x y, In x R -> In y R -> map pq x = map pq y) /\
    (forall dim, In dim dims -> forall x, In x R -> rows_of (fz dim) x <> []) /\
    check_diagrams [zlen R; N; 3] (flatten R) = Ok R.
Proof.
  intros HX Hdn Hd H. destruct (postprocess_ok junk Xt0 dims i reduced HX Hd) as [ns [ms [L1 [L2 [H1 H2]]]]].
  rewrite H2 in H. injection H as <-.
  set (B := combine dims (combine ns ms)).
  set (row := fun d => concat (map (fun qnm => padded (fst (snd qnm)) (snd (snd qnm)) (fz (fst qnm))
                                (nontrivial_rows reduced i d (fst qnm))) B)).
  assert (HB : forall d qnm, In d Xt0 -> In qnm B -> 1 <= fst (snd qnm) /\
      zlen (nontrivial_rows reduced i d (fst qnm)) <= fst (snd qnm) /\ isnan (snd (snd qnm)) = false /\ In (fst qnm) dims).
  { intros d qnm Hdi Hq. destruct (in_combine3 _ _ _ _ Hq) as [k [K1 [K2 K3]]].
    destruct (H1 _ _ K1) as [n [m [E1 [E2 [[S1 [S2 _]] P]]]]]. rewrite K2 in E1. rewrite K3 in E2. injection E1 as ->. injection E2 as ->.
    split; [assumption|]. split; [apply S2, (in_map (fun d => nontrivial_rows reduced i d (fst qnm))); assumption|].
    split; [|eapply Znth_In; eauto].
    destruct P as [[-> _]|[[x [p [Hx [Hp <-]]]] _]]; [reflexivity|].
    apply in_map_iff in Hx. destruct Hx as [d' [<- _]]. apply nontrivial_rows_pq in Hp. destruct Hp as [_ Hp]. apply flt_nan in Hp. tauto. }
  assert (HLB : exists qnm B', B = qnm :: B').
  { unfold B. destruct dims as [|a dims]; [easy|]. destruct ns as [|b ns]; [rewrite zlen_nil, zlen_cons in L1; pose proof (zlen_nonneg dims); lia|].
    destruct ms as [|c ms]; [rewrite zlen_nil, zlen_cons in L2; pose proof (zlen_nonneg dims); lia|]. cbn [combine]. eauto. }
  set (N := fold_right Z.add 0 (map (fun qnm => fst (snd qnm)) B)).
  assert (HL : forall d, In d Xt0 -> zlen (row d) = N).
  { intros d Hdi. unfold row, N. rewrite zlen_concat, map_map. f_equal. apply map_ext_in. intros qnm Hq.
    destruct (HB d qnm Hdi Hq) as [_ [A _]]. now apply zlen_padded. }
  assert (Hpq : forall d, In d Xt0 -> map pq (row d) = concat (map (fun qnm => repeat (fz (fst qnm)) (Z.to_nat (fst (snd qnm)))) B)).
  { intros d Hdi. unfold row. rewrite concat_map, map_map. f_equal. apply map_ext_in. intros qnm Hq.
    destruct (HB d qnm Hdi Hq) as [_ [A _]]. apply padded_pq; [assumption|].
    intros p Hp. now apply nontrivial_rows_pq in Hp. }
  assert (HN : 1 <= N).
  { destruct HLB as [qnm [B' EB]]. destruct Xt0 as [|d0 Xt0]; [easy|].
    assert (0 <= fold_right Z.add 0 (map (fun qnm => fst (snd qnm)) B')).
    { assert (forall q, In q B' -> 0 <= fst (snd q)).
      { intros q Hq. assert (In q B) by (rewrite EB; now right). destruct (HB d0 q ltac:(now left) H). lia. }
      clear -H. induction B'; cbn [map fold_right]; [lia|]. assert (0 <= fst (snd a)) by (apply H; now left).
      assert (0 <= fold_right Z.add 0 (map (fun qnm : Z * (Z * fl) => fst (snd qnm)) B')) by (apply IHB'; intros; apply H; now right). lia. }
    unfold N. rewrite EB. cbn [map fold_right].
    destruct (HB d0 qnm ltac:(now left) ltac:(rewrite EB; now left)). lia. }
  assert (HR : forall x, In x (map row Xt0) -> exists d, In d Xt0 /\ x = row d).
  { intros x Hx. apply in_map_iff in Hx. destruct Hx as [d [<- Hdi]]. eauto. }
  exists N. split; [assumption|]. split; [apply zlen_map|]. split; [|split; [|split]].
  - intros x Hx. destruct (HR x Hx) as [d [Hdi ->]]. auto.
  - intros x y Hx Hy. destruct (HR x Hx) as [d [Hdi ->]]. destruct (HR y Hy) as [d' [Hdi' ->]]. rewrite !Hpq by assumption. reflexivity.
  - intros dim Hdim x Hx E. destruct (HR x Hx) as [d [Hdi ->]].
    assert (In (fz dim) (map pq (row d))).
    { rewrite Hpq by assumption. apply in_concat. apply In_Znth in Hdim. destruct Hdim as [k [Hk Hdim]].
      destruct (H1 k dim Hdim) as [n [m [E1 [E2 [[S1 _] _]]]]].
      exists (repeat (fz dim) (Z.to_nat n)). split.
      - apply in_map_iff. exists (dim, (n, m)). split; [reflexivity|]. eapply Znth_In. unfold B.
        apply Znth_combine; [eassumption|]. apply Znth_combine; eassumption.
      - replace (Z.to_nat n) with (S (Z.to_nat (n - 1))) by lia. now left. }
    apply in_map_iff in H. destruct H as [p [Ep Hp]].
    assert (In p (rows_of (fz dim) (row d))) by (apply filter_In; split; [assumption|]; rewrite Ep; apply feq_refl; reflexivity).
    rewrite E in H. destruct H.
  - apply check_diagrams_ok.
    + intros s [<-|[<-|[<-|[]]]]; [apply zlen_nonneg|lia|lia].
    + rewrite zlen_flatten. rewrite (zlen_concat_uniform _ N); [unfold shape_size; cbn [fold_right]; unfold diagram in *; lia|].
      intros x Hx. destruct (HR x Hx) as [d [Hdi ->]]. auto.
    + exists (zlen (map row Xt0)), N. split; [reflexivity|]. split.
      * rewrite zlen_map. destruct Xt0; [easy|]. rewrite zlen_cons. pose proof (zlen_nonneg Xt0). lia.
      * split; [reflexivity|]. split; [intros x Hx; destruct (HR x Hx) as [d [Hdi ->]]; auto|]. split; [reflexivity|].
        assert (HP : forall d p, In d Xt0 -> In p (row d) -> is_dim_label (pq p) /\ flt (pd p) (pb p) = false /\
                       (isnan (pb p) = false /\ isnan (pd p) = false)).
        { intros d p Hdi Hp. unfold row in Hp. apply in_concat in Hp. destruct Hp as [blk [Hb Hp]].
          apply in_map_iff in Hb. destruct Hb as [qnm [<- Hq]]. destruct (HB d qnm Hdi Hq) as [_ [_ [Nn Hin]]].
          unfold padded, diag_rows in Hp. apply in_app_or in Hp. destruct Hp as [Hp|Hp].
          - apply nontrivial_rows_pq in Hp. destruct Hp as [Eq Hlt]. split.
            + exists (fst qnm). split; [|assumption]. destruct (Hd d (fst qnm) Hdi Hin). assumption.
            + split; [now apply flt_asym|]. now apply flt_nan.
          - apply repeat_spec in Hp. subst p. cbn [pq pb pd]. split.
            + exists (fst qnm). split; [|reflexivity]. destruct (Hd d (fst qnm) Hdi Hin). assumption.
            + split; [apply flt_irrefl|auto]. }
        split; [|split].
        -- right. destruct Xt0 as [|d0 Xt0]; [easy|]. cbn [map hd]. intros p Hp. apply (HP d0); [now left|assumption].
        -- intros x p Hx Hp. destruct (HR x Hx) as [d [Hdi ->]]. exact (proj1 (proj2 (HP d p Hdi Hp))).
        -- intros x p Hx Hp. destruct (HR x Hx) as [d [Hdi ->]]. destruct (HP d p Hdi Hp) as [[k [_ E]] [_ [N1 N2]]].
           split; [now apply isnan_iff|]. split; [now apply isnan_iff|]. now rewrite E.
Qed.

Lemma same_dims_balanced R q : (forall x y, In x R -> In y R -> map pq x = map pq y) -> balanced q R.
Proof.
  intros H. destruct R as [|x0 R]; [exists 0; easy|]. exists (zlen (rows_of q x0)).
  intros x Hx. apply zlen_rows_of_pq. apply H; [assumption|now left].
Qed.

Lemma postprocess_split junk Xt0 dims i reduced R q :
  Xt0 <> [] -> dims <> [] -> (forall d dim, In d Xt0 -> In dim dims -> has_dimension d dim) ->
  postprocess_diagrams junk Xt0 dims i reduced = Ok R ->
  subdiagrams R [q] = Ok (map (rows_of q) R).
Proof.
  intros H1 H2 H3 H4. destruct (postprocess_valid junk Xt0 dims i reduced R H1 H2 H3 H4) as [N [_ [L [_ [E _]]]]].
  rewrite subdiagrams_ok.
  - f_equal. apply map_ext. intros x. cbn [map concat]. apply app_nil_r.
  - intros ->. rewrite zlen_nil in L. destruct Xt0; [easy|]. rewrite zlen_cons in L. pose proof (zlen_nonneg Xt0). lia.
  - easy.
  - intros q' _. now apply same_dims_balanced.
Qed.

(** the rows of a requested dimension are the padded non-trivial points *)
Lemma rows_of_padded_same n m q k : isnan q = false -> (forall p, In p k -> pq p = q) -> rows_of q (padded n m q k) = padded n m q k.
Proof.
  intros Hn H. apply filter_all. intros p Hp. unfold padded, diag_rows in Hp. apply in_app_or in Hp.
  destruct Hp as [Hp|Hp]; [rewrite (H p Hp); now apply feq_refl|]. apply repeat_spec in Hp. subst p. now apply feq_refl.
Qed.
Lemma rows_of_padded_other n m q q' k : feq q q' = false -> (forall p, In p k -> pq p = q) -> rows_of q' (padded n m q k) = [].
Proof.
  intros Hn H. apply filter_none. intros p Hp. unfold padded, diag_rows in Hp. apply in_app_or in Hp.
  destruct Hp as [Hp|Hp]; [now rewrite (H p Hp)|]. apply repeat_spec in Hp. subst p. assumption.
Qed.
Lemma rows_of_concat q L : rows_of q (concat L) = concat (map (rows_of q) L).
Proof. apply filter_concat. Qed.

Lemma postprocess_rows junk Xt0 dims i reduced R :
  Xt0 <> [] -> NoDup dims -> (forall d dim, In d Xt0 -> In dim dims -> has_dimension d dim) ->
  postprocess_diagrams junk Xt0 dims i reduced = Ok R ->
  forall dim, In dim dims -> exists n m,
    is_slot_count n (map (fun d => nontrivial_rows reduced i d dim) Xt0) /\
    is_padding_value m (map (fun d => nontrivial_rows reduced i d dim) Xt0) /\
    map (rows_of (fz dim)) R = map (fun d => padded n m (fz dim) (nontrivial_rows reduced i d dim)) Xt0.
Proof.
  intros HX ND Hd H dim Hdim. destruct (postprocess_ok junk Xt0 dims i reduced HX Hd) as [ns [ms [L1 [L2 [H1 H2]]]]].
  rewrite H2 in H. injection H as <-. apply In_Znth in Hdim. destruct Hdim as [k [Hk Hdim]].
  destruct (H1 k dim Hdim) as [n [m [E1 [E2 [S P]]]]]. exists n, m. split; [assumption|]. split; [assumption|].
  rewrite map_map. apply map_ext. intros d. rewrite rows_of_concat, map_map.
  clear H1 H2 S P Hd HX. revert ns ms k L1 L2 Hk Hdim E1 E2. induction dims as [|a dims IH]; intros ns ms k L1 L2 Hk Hdim E1 E2.
  - apply Znth_In in Hdim. destruct Hdim.
  - destruct ns as [|b ns]; [apply Znth_In in E1; destruct E1|]. destruct ms as [|c ms]; [apply Znth_In in E2; destruct E2|].
    rewrite (zlen_cons b), (zlen_cons a) in L1. rewrite (zlen_cons c), (zlen_cons a) in L2. rewrite zlen_cons in Hk.
    inversion ND as [|? ? Hnin ND']; subst. cbn [combine map concat fst snd].
    destruct (Z.eq_dec k 0) as [->|].
    + rewrite Znth_0 in Hdim. rewrite Znth_0 in E1. rewrite Znth_0 in E2.
      injection Hdim as ->. injection E1 as ->. injection E2 as ->.
      rewrite rows_of_padded_same by (reflexivity || (intros p Hp; now apply nontrivial_rows_pq in Hp)).
      rewrite (proj2 (concat_nil_iff _)); [apply app_nil_r|].
      intros x Hx. apply in_map_iff in Hx. destruct Hx as [qnm [<- Hq]].
      apply rows_of_padded_other; [|intros p Hp; now apply nontrivial_rows_pq in Hp].
      rewrite feq_fz. apply Z.eqb_neq. intros E. apply Hnin. rewrite <- E.
      destruct qnm as [a' bc]. apply in_combine_l in Hq. assumption.
    + rewrite Znth_cons in Hdim by lia. rewrite Znth_cons in E1 by lia. rewrite Znth_cons in E2 by lia.
      rewrite rows_of_padded_other; [|rewrite feq_fz; apply Z.eqb_neq; intros ->; apply Hnin; eapply Znth_In; eassumption
        |intros p Hp; now apply nontrivial_rows_pq in Hp].
      cbn [app]. apply (IH ND' ns ms (k - 1)); (assumption || lia).
Qed.

(** *** Scaler *)
Lemma fmul_fdiv_cancel x s : s <> 0%Qc -> fmul (fdiv x (Fin s)) (Fin s) = x.
Proof.
  intros Hs. assert (C : (s < 0 \/ 0 < s)%Qc).
  { destruct (Qc_dec s 0) as [[?|?]|?]; auto. contradiction. }
  destruct x; cbn [fdiv].
  - reflexivity.
  - unfold fsign. destruct C as [C|C].
    + assert (E : Qccompare s 0 = Lt) by (now apply Qclt_alt). rewrite E. change (-1 <? 0)%Z with true. cbv iota.
      change (-1 * -1) with 1. change (finf 1) with PInf. cbn [fmul]. unfold fsign. rewrite E. reflexivity.
    + assert (E : Qccompare s 0 = Gt) by (now apply Qcgt_alt). rewrite E. change (1 <? 0)%Z with false. cbv iota.
      change (-1 * 1) with (-1). change (finf (-1)) with NInf. cbn [fmul]. unfold fsign. rewrite E. reflexivity.
  - destruct (Qceqb_spec s 0); [contradiction|]. cbn [fmul]. f_equal. field. assumption.
  - unfold fsign. destruct C as [C|C].
    + assert (E : Qccompare s 0 = Lt) by (now apply Qclt_alt). rewrite E. change (-1 <? 0)%Z with true. cbv iota.
      change (1 * -1) with (-1). change (finf (-1)) with NInf. cbn [fmul]. unfold fsign. rewrite E. reflexivity.
    + assert (E : Qccompare s 0 = Gt) by (now apply Qcgt_alt). rewrite E. change (1 <? 0)%Z with false. cbv iota.
      change (1 * 1) with 1. change (finf 1) with PInf. cbn [fmul]. unfold fsign. rewrite E. reflexivity.
Qed.
Lemma scaler_round_trip_l s X : s <> 0%Qc -> scaler_inverse_transform (Fin s) (scaler_transform (Fin s) X) = X.
Proof.
  intros Hs. unfold scaler_inverse_transform, scaler_transform. rewrite map_map. rewrite <- (map_id X) at 2.
  apply map_ext. intros x. rewrite map_map. rewrite <- (map_id x) at 2. apply map_ext. intros [b d q]. cbn [pb pd pq].
  now rewrite !fmul_fdiv_cancel.
Qed.

Lemma fmax_fold_spec t x :
  isnan x = false -> (forall y, In y t -> isnan y = false) ->
  In (fold_left fmax t x) (x :: t) /\ forall y, In y (x :: t) -> fle y (fold_left fmax t x) = true.
Proof.
  revert x; induction t as [|z t IH]; intros x Hx Ht; cbn [fold_left].
  - split; [now left|]. intros y [->|[]]. now apply fle_refl.
  - assert (Hz := Ht z (or_introl eq_refl)).
    assert (E : fmax x z = z /\ fle x z = true \/ fmax x z = x /\ fle z x = true).
    { unfold fmax. rewrite Hx, Hz. cbn [orb]. destruct (fle x z) eqn:E; [auto|].
      right. split; [reflexivity|]. apply flt_fle, fle_false; auto. }
    destruct (IH (fmax x z)) as [I1 I2].
    { destruct E as [[-> _]|[-> _]]; assumption. }
    { intros; apply Ht; now right. }
    split.
    + destruct I1 as [I1|I1]; [|right; now right]. rewrite <- I1.
      destruct E as [[-> _]|[-> _]]; [right; now left|now left].
    + assert (Hm := I2 _ (or_introl eq_refl)).
      intros y [<-|[<-|Hy]].
      * eapply fle_trans; [|exact Hm]. destruct E as [[-> ?]|[-> _]]; [assumption|now apply fle_refl].
      * eapply fle_trans; [|exact Hm]. destruct E as [[-> _]|[-> ?]]; [now apply fle_refl|assumption].
      * apply I2. now right.
Qed.
Lemma np_max_spec l :
  l <> [] -> (forall y, In y l -> isnan y = false) ->
  exists m, np_max l = Ok m /\ In m l /\ forall y, In y l -> fle y m = true.
Proof.
  destruct l as [|x t]; [easy|]. intros _ H. exists (fold_left fmax t x). split; [reflexivity|].
  apply fmax_fold_spec; [apply H; now left|]. intros; apply H; now right.
Qed.

Lemma bottleneck_amplitude_ok x :
  x <> [] -> (forall p, In p x -> exists b d, pb p = Fin b /\ pd p = Fin d /\ (b <= d)%Qc) ->
  exists a, bottleneck_amplitude x = Ok (Fin a) /\ (0 <= a)%Qc /\
    (exists p b d, In p x /\ pb p = Fin b /\ pd p = Fin d /\ (d - b = qz 2 * a)%Qc) /\
    (forall p b d, In p x -> pb p = Fin b -> pd p = Fin d -> (d - b <= qz 2 * a)%Qc).
Proof.
  intros Hx H.
  assert (Q2 : qz 2 <> 0%Qc) by (intros E; rewrite <- qz_0 in E; apply qz_inj in E; discriminate).
  assert (P2 : (0 < qz 2)%Qc) by (rewrite <- qz_0; apply qz_lt; lia).
  assert (V : forall p b d, pb p = Fin b -> pd p = Fin d -> (b <= d)%Qc ->
     fabs (fdiv (fsub (pd p) (pb p)) (fz 2)) = Fin ((d - b) / qz 2)%Qc /\ (0 <= (d - b) / qz 2)%Qc).
  { intros p b d -> -> Hbd. cbn [fsub fopp fadd]. rewrite fz_qz. cbn [fdiv].
    destruct (Qceqb_spec (qz 2) 0); [contradiction|].
    change (d + - b)%Qc with (d - b)%Qc.
    assert (0 <= (d - b) / qz 2)%Qc.
    { apply Qcmult_lt_0_le_reg_r with (qz 2); [assumption|].
      replace (0 * qz 2)%Qc with 0%Qc by ring. replace ((d - b) / qz 2 * qz 2)%Qc with (d - b)%Qc by (field; assumption).
      unfold Qcminus. rewrite <- (Qcplus_opp_r b). apply Qcplus_le_compat; [assumption|apply Qcle_refl]. }
    split; [|assumption]. cbn [fabs]. destruct (Qcleb_spec 0 ((d - b) / qz 2)); [reflexivity|contradiction]. }
  destruct (np_max_spec (map (fun p => fabs (fdiv (fsub (pd p) (pb p)) (fz 2))) x)) as [m [E [I M]]].
  { destruct x; [easy|discriminate]. }
  { intros y Hy. apply in_map_iff in Hy. destruct Hy as [p [<- Hp]]. destruct (H p Hp) as [b [d [Eb [Ed Hbd]]]].
    destruct (V p b d Eb Ed Hbd) as [-> _]. reflexivity. }
  apply in_map_iff in I. destruct I as [p [Em Hp]]. destruct (H p Hp) as [b [d [Eb [Ed Hbd]]]].
  destruct (V p b d Eb Ed Hbd) as [Ev Pv]. rewrite Ev in Em. subst m.
  exists ((d - b) / qz 2)%Qc. split; [exact E|]. split; [assumption|]. split.
  - exists p, b, d. repeat split; try assumption. field. assumption.
  - intros p' b' d' Hp' Eb' Ed'. destruct (H p' Hp') as [b'' [d'' [Eb'' [Ed'' Hbd']]]].
    rewrite Eb' in Eb''. rewrite Ed' in Ed''. injection Eb'' as <-. injection Ed'' as <-.
    destruct (V p' b' d' Eb' Ed' Hbd') as [Ev' _].
    assert (F := M _ (in_map (fun p => fabs (fdiv (fsub (pd p) (pb p)) (fz 2))) _ _ Hp')). cbv beta in F. rewrite Ev' in F.
    cbn [fle] in F. apply Qcleb_le in F.
    replace (d' - b')%Qc with ((d' - b') / qz 2 * qz 2)%Qc by (field; assumption).
    rewrite (Qcmult_comm (qz 2)). apply Qcmult_le_compat_r; [assumption|now apply Qclt_le_weak].
Qed.

Lemma scaler_fit_bottleneck_ok X :
  X <> [] -> hd [] X <> [] -> finite_points X -> dimensions_of_first X ->
  (forall q, In q (map pq (hd [] X)) -> balanced q X) ->
  exists s, scaler_fit_bottleneck X = Ok (Fin s) /\ (0 <= s)%Qc /\
    (exists x p b d, In x X /\ In p x /\ pb p = Fin b /\ pd p = Fin d /\ (d - b = qz 2 * s)%Qc) /\
    (forall x p b d, In x X -> In p x -> pb p = Fin b -> pd p = Fin d -> (d - b <= qz 2 * s)%Qc).
Proof.
  intros HX H0 HF HD HB. destruct X as [|x0 X']; [easy|]. cbn [hd] in *.
  set (X := x0 :: X') in *. set (dims := np_unique (map pq x0)).
  unfold scaler_fit_bottleneck. change (first_dims X) with (Ok dims). cbn [bind].
  assert (HI : forall q, In q dims <-> In q (map pq x0)) by (intros; apply np_unique_In').
  assert (NE : forall q x, In q dims -> In x X -> rows_of q x <> []).
  { intros q x Hq Hx E. apply HI in Hq. destruct (HB q Hq) as [n Hn]. assert (A := Hn x Hx). rewrite E, zlen_nil in A.
    apply in_map_iff in Hq. destruct Hq as [p [Ep Hp]].
    assert (B := Hn x0 (or_introl eq_refl)). assert (C : In p (rows_of q x0)).
    { apply filter_In. split; [assumption|]. rewrite <- Ep. apply feq_refl. apply (HD x0 p); [now left|assumption]. }
    rewrite <- A in B. destruct (rows_of q x0) as [|? r]; [destruct C|]. rewrite zlen_cons in B. pose proof (zlen_nonneg r). lia. }
  set (amp := fun q x => match bottleneck_amplitude (rows_of q x) with Ok a => a | Err _ => f0 end).
  assert (HA : forall q x, In q dims -> In x X -> exists a, bottleneck_amplitude (rows_of q x) = Ok (Fin a) /\ amp q x = Fin a /\ (0 <= a)%Qc /\
     (exists p b d, In p (rows_of q x) /\ pb p = Fin b /\ pd p = Fin d /\ (d - b = qz 2 * a)%Qc) /\
     (forall p b d, In p (rows_of q x) -> pb p = Fin b -> pd p = Fin d -> (d - b <= qz 2 * a)%Qc)).
  { intros q x Hq Hx. destruct (bottleneck_amplitude_ok (rows_of q x) (NE q x Hq Hx)) as [a [E R]].
    - intros p Hp. apply filter_In in Hp. apply (HF x p); tauto.
    - exists a. split; [assumption|]. split; [unfold amp; now rewrite E|]. exact R. }
  assert (EM : mapM (fun dim => do Xs <- subdiagrams X [dim]; mapM bottleneck_amplitude Xs) dims
      = Ok (map (fun q => map (amp q) X) dims)).
  { apply mapM_Ok. intros q Hq. rewrite subdiagrams_ok; [|discriminate|discriminate|].
    - cbn [bind]. rewrite mapM_map. apply mapM_Ok. intros x Hx. cbn [map concat]. rewrite app_nil_r.
      destruct (HA q x Hq Hx) as [a [E [Ea _]]]. now rewrite Ea.
    - intros q' [<-|[]]. apply HB. now apply HI. }
  rewrite EM. cbn [bind].
  set (L := concat (map (fun q => map (amp q) X) dims)).
  assert (HL : forall v, In v L <-> exists q x, In q dims /\ In x X /\ v = amp q x).
  { intros v. unfold L. rewrite in_concat. split.
    - intros [l [Hl Hv]]. apply in_map_iff in Hl. destruct Hl as [q [<- Hq]]. apply in_map_iff in Hv. destruct Hv as [x [<- Hx]]. eauto.
    - intros [q [x [Hq [Hx ->]]]]. exists (map (amp q) X). split; [apply (in_map (fun q => map (amp q) X)); assumption|now apply in_map]. }
  destruct (np_max_spec L) as [m [E [I M]]].
  { destruct x0 as [|p0 x0]; [easy|]. intros EL.
    assert (A : In (amp (pq p0) (p0 :: x0)) L) by (apply HL; exists (pq p0), (p0 :: x0); split; [apply HI; now left|split; [now left|reflexivity]]).
    rewrite EL in A. destruct A. }
  { intros v Hv. apply HL in Hv. destruct Hv as [q [x [Hq [Hx ->]]]]. destruct (HA q x Hq Hx) as [a [_ [-> _]]]. reflexivity. }
  apply HL in I. destruct I as [q [x [Hq [Hx Em]]]]. destruct (HA q x Hq Hx) as [a [_ [Ea [Pa [[p [b [d [Hp [Eb [Ed Ev]]]]]] _]]]]].
  exists a. rewrite E, Em, Ea. split; [reflexivity|]. split; [assumption|]. split.
  - exists x, p, b, d. apply filter_In in Hp. tauto.
  - intros x' p' b' d' Hx' Hp' Eb' Ed'.
    destruct (HD x' p' Hx' Hp') as [Nn Hin]. cbn [hd X] in Hin. apply HI in Hin.
    destruct (HA (pq p') x' Hin Hx') as [a' [_ [Ea' [_ [_ Ha']]]]].
    eapply Qcle_trans; [apply (Ha' p'); [apply filter_In; split; [assumption|now apply feq_refl]|assumption|assumption]|].
    assert (F : fle (amp (pq p') x') m = true) by (apply M, HL; eauto).
    rewrite Em, Ea, Ea' in F. cbn [fle] in F. apply Qcleb_le in F.
    rewrite !(Qcmult_comm (qz 2)). apply Qcmult_le_compat_r; [assumption|]. rewrite <- qz_0. apply qz_le. lia.
Qed.

Lemma scaler_max_lifetime_l X :
  X <> [] -> hd [] X <> [] -> finite_points X -> dimensions_of_first X ->
  (forall q, In q (map pq (hd [] X)) -> balanced q X) ->
  exists s, scaler_fit_bottleneck X = Ok (Fin s) /\ (0 <= s)%Qc /\
   ((0 < s)%Qc ->
    (exists x p b d, In x (scaler_transform (Fin s) X) /\ In p x /\ pb p = Fin b /\ pd p = Fin d /\ (d - b = qz 2)%Qc) /\
    (forall x p, In x (scaler_transform (Fin s) X) -> In p x -> exists b d, pb p = Fin b /\ pd p = Fin d /\ (b <= d)%Qc /\ (d - b <= qz 2)%Qc)).
Proof.
  intros H1 H2 HF H4 H5. destruct (scaler_fit_bottleneck_ok X H1 H2 HF H4 H5) as [s [E [P [[x [p [b [d [Hx [Hp [Eb [Ed Ev]]]]]]]] M]]]].
  exists s. split; [assumption|]. split; [assumption|]. intros Ps.
  assert (N : s <> 0%Qc) by (intros ->; now apply Qclt_not_le in Ps; apply Ps, Qcle_refl).
  assert (EE : Qceqb s 0 = false) by (destruct (Qceqb_spec s 0); [contradiction|reflexivity]).
  split.
  - exists (map (fun p => Pt (fdiv (pb p) (Fin s)) (fdiv (pd p) (Fin s)) (pq p)) x), (Pt (fdiv (pb p) (Fin s)) (fdiv (pd p) (Fin s)) (pq p)), (b / s)%Qc, (d / s)%Qc.
    split; [unfold scaler_transform; apply (in_map (map _)); assumption|].
    split; [apply (in_map (fun p => Pt (fdiv (pb p) (Fin s)) (fdiv (pd p) (Fin s)) (pq p))); assumption|].
    cbn [pb pd]. rewrite Eb, Ed. cbn [fdiv]. rewrite EE. repeat split.
    replace (d / s - b / s)%Qc with ((d - b) / s)%Qc by (field; assumption). rewrite Ev. field. assumption.
  - intros x' p' Hx' Hp'. unfold scaler_transform in Hx'. apply in_map_iff in Hx'. destruct Hx' as [x2 [<- Hx2]].
    apply in_map_iff in Hp'. destruct Hp' as [p2 [<- Hp2]]. destruct (HF x2 p2 Hx2 Hp2) as [b2 [d2 [Eb2 [Ed2 L2]]]].
    exists (b2 / s)%Qc, (d2 / s)%Qc. cbn [pb pd]. rewrite Eb2, Ed2. cbn [fdiv]. rewrite EE. split; [reflexivity|]. split; [reflexivity|].
    assert (Es : forall u, (u / s * s = u)%Qc) by (intros; field; assumption).
    split.
    + apply Qcmult_lt_0_le_reg_r with s; [assumption|]. now rewrite !Es.
    + apply Qcmult_lt_0_le_reg_r with s; [assumption|].
      replace ((d2 / s - b2 / s) * s)%Qc with (d2 - b2)%Qc by (field; assumption).
      exact (M x2 p2 b2 d2 Hx2 Hp2 Eb2 Ed2).
Qed.

Lemma filter_rectangular X filtered cutoff :
  X <> [] -> filtered <> [] ->
  (forall q, In q (map pq (hd [] X)) -> memf q filtered = false -> balanced q X) ->
  exists R N, filter_diagrams X filtered cutoff = Ok R /\ zlen R = zlen X /\ 1 <= N /\
    (forall x, In x R -> zlen x = N).
Proof.
  intros HX Hf HB.
  destruct (filter_diagrams_ok X filtered cutoff HX) as [ns [ms [L1 [L2 [H1 H2]]]]].
  { intros q Hq. apply HB. now apply np_unique_In'. }
  rewrite H2. clear H2. set (D := filter (fun q => negb (memf q filtered)) (np_unique (map pq (hd [] X)))).
  set (x0 := hd [] X).
  set (row := fun x => concat _ ++ concat _).
  exists (map row X), (zlen (row x0)). split; [reflexivity|]. split; [apply zlen_map|].
  assert (Hx0 : In x0 X) by (destruct X; [easy|now left]).
  assert (HB' : forall q, In q D -> balanced q X).
  { intros q Hq. apply filter_In in Hq. destruct Hq as [A B]. apply HB; [now apply np_unique_In'|]. now destruct (memf q filtered). }
  assert (HC : forall x qnm, In x X -> In qnm (combine filtered (combine ns ms)) ->
     1 <= fst (snd qnm) /\ zlen (padded (fst (snd qnm)) (snd (snd qnm)) (fst qnm) (long_lived cutoff (fst qnm) x)) = fst (snd qnm)).
  { intros x qnm Hx Hq. destruct (in_combine3 _ _ _ _ Hq) as [k [K1 [K2 K3]]].
    destruct (H1 _ _ K1) as [n [m [E1 [E2 [[S1 [S2 _]] P]]]]]. rewrite K2 in E1. injection E1 as ->.
    split; [assumption|]. apply zlen_padded. apply S2, (in_map (long_lived cutoff (fst qnm))); assumption. }
  assert (HL : forall x, In x X -> zlen (row x) = fold_right Z.add 0 (map (fun qnm : fl * (Z * fl) => fst (snd qnm)) (combine filtered (combine ns ms)))
     + fold_right Z.add 0 (map (fun q => zlen (rows_of q x0)) D)).
  { intros x Hx. unfold row. rewrite zlen_app, !zlen_concat, !map_map. f_equal.
    - f_equal. apply map_ext_in. intros qnm Hq. now apply HC.
    - f_equal. apply map_ext_in. intros q Hq. destruct (HB' q Hq) as [n Hn]. now rewrite !Hn. }
  split.
  - unfold row. rewrite zlen_app. pose proof (zlen_nonneg (concat (map (fun q => rows_of q x0) D))).
    destruct filtered as [|q0 fs]; [easy|]. destruct ns as [|n0 ns]; [rewrite zlen_nil, zlen_cons in L1; pose proof (zlen_nonneg fs); lia|].
    destruct ms as [|m0 ms]; [rewrite zlen_nil, zlen_cons in L2; pose proof (zlen_nonneg fs); lia|].
    cbn [combine map concat]. rewrite zlen_app.
    destruct (HC x0 (q0, (n0, m0)) Hx0 ltac:(now left)) as [A B]. rewrite B.
    cbn [fst snd] in *. pose proof (zlen_nonneg (concat (map (fun qnm : fl * (Z * fl) => padded (fst (snd qnm)) (snd (snd qnm)) (fst qnm) (long_lived cutoff (fst qnm) x0)) (combine fs (combine ns ms))))). lia.
  - intros x Hx. apply in_map_iff in Hx. destruct Hx as [y [<- Hy]]. now rewrite !HL.
Qed.

Lemma memf_In q l : isnan q = false -> memf q l = true <-> In q l.
Proof.
  intros Hn. unfold memf. rewrite existsb_exists. split.
  - intros [x [Hx E]]. apply feq_eq in E. now subst.
  - intros H. exists q. split; [assumption|now apply feq_refl].
Qed.
Lemma increasing_filter f l : increasing l -> increasing (filter f l).
Proof.
  induction l as [|x l IH]; intros H; [exact H|]. cbn [filter].
  assert (Hl : increasing l).
  { intros i j a b Hij Ha Hb. apply (H (i + 1) (j + 1) a b); [lia| |]; rewrite Znth_cons by lia;
      [replace (i + 1 - 1) with i by lia|replace (j + 1 - 1) with j by lia]; assumption. }
  assert (Hx : forall y, In y l -> flt x y = true).
  { intros y Hy. apply In_Znth in Hy. destruct Hy as [k [Hk Hy]]. apply (H 0 (k + 1)); [lia|apply Znth_0|].
    rewrite Znth_cons by lia. now replace (k + 1 - 1) with k by lia. }
  destruct (f x); [|now apply IH].
  intros i j a b Hij Ha Hb. rewrite Znth_cons in Hb by lia. destruct (Z.eq_dec i 0) as [->|].
  - rewrite Znth_0 in Ha. injection Ha as <-. apply Hx. apply Znth_In in Hb. apply filter_In in Hb. tauto.
  - rewrite Znth_cons in Ha by lia. apply (IH Hl (i - 1) (j - 1)); (assumption || lia).
Qed.

Lemma filter_diagrams_full X filtered cutoff :
  X <> [] ->
  (forall p, In p (hd [] X) -> isnan (pq p) = false) ->
  (forall q, In q (map pq (hd [] X)) -> ~ In q filtered -> balanced q X) ->
  exists ns ms others,
    increasing others /\
    (forall q, In q others <-> In q (map pq (hd [] X)) /\ ~ In q filtered) /\
    zlen ns = zlen filtered /\ zlen ms = zlen filtered /\
    (forall i q, Znth filtered i = Some q -> exists n m,
        Znth ns i = Some n /\ Znth ms i = Some m /\
        is_slot_count n (map (long_lived cutoff q) X) /\
        is_padding_value m (map (long_lived cutoff q) X)) /\
    filter_diagrams X filtered cutoff = Ok (map (fun x =>
       concat (map (fun qnm => padded (fst (snd qnm)) (snd (snd qnm)) (fst qnm)
                                (long_lived cutoff (fst qnm) x))
                   (combine filtered (combine ns ms)))
       ++ concat (map (fun q => rows_of q x) others)) X).
Proof.
  intros HX HN HB.
  assert (HN' : forall q, In q (map pq (hd [] X)) -> isnan q = false).
  { intros q Hq. apply in_map_iff in Hq. destruct Hq as [p [<- Hp]]. auto. }
  destruct (filter_diagrams_ok X filtered cutoff HX) as [ns [ms [L1 [L2 [H1 H2]]]]].
  { intros q Hq Hm. apply (proj1 (np_unique_In' _ _)) in Hq. apply HB; [assumption|].
    intros Hi. apply (memf_In q filtered (HN' q Hq)) in Hi. congruence. }
  exists ns, ms, (filter (fun q => negb (memf q filtered)) (np_unique (map pq (hd [] X)))).
  split; [apply increasing_filter, np_unique_inc; assumption|]. split; [|split; [assumption|split; [assumption|split; [assumption|exact H2]]]].
  intros q. rewrite filter_In, np_unique_In'. split; intros [A B]; (split; [assumption|]).
  - intros Hi. apply (memf_In q filtered (HN' q A)) in Hi. rewrite Hi in B. discriminate.
  - destruct (memf q filtered) eqn:E; [|reflexivity]. apply (memf_In q filtered (HN' q A)) in E. contradiction.
Qed.
Lemma filter_rectangular_full X filtered cutoff :
  X <> [] -> filtered <> [] ->
  (forall p, In p (hd [] X) -> isnan (pq p) = false) ->
  (forall q, In q (map pq (hd [] X)) -> ~ In q filtered -> balanced q X) ->
  exists R N, filter_diagrams X filtered cutoff = Ok R /\ zlen R = zlen X /\ 1 <= N /\
    (forall x, In x R -> zlen x = N).
Proof.
  intros HX Hf HN HB. apply filter_rectangular; [assumption|assumption|]. intros q Hq Hm. apply HB; [assumption|].
  intros Hi. apply in_map_iff in Hq. destruct Hq as [p [<- Hp]]. apply (memf_In _ filtered (HN p Hp)) in Hi. congruence.
Qed.

Lemma insert_sorted_perm x l : Permutation (insert_sorted x l) (x :: l).
Proof.
  induction l as [|y l IH]; cbn [insert_sorted]; [apply Permutation_refl|].
  destruct (fle x y); [apply Permutation_refl|]. rewrite IH. apply perm_swap.
Qed.
Lemma py_sorted_perm l : Permutation (py_sorted l) l.
Proof. induction l; [constructor|]. cbn [py_sorted fold_right]. rewrite insert_sorted_perm. now constructor. Qed.
Lemma insert_sorted_ss x l : isnan x = false -> (forall y, In y l -> isnan y = false) ->
  StronglySorted (fun a b => fle a b = true) l -> StronglySorted (fun a b => fle a b = true) (insert_sorted x l).
Proof.
  intros Hx. induction l as [|y l IH]; intros Hl S; cbn [insert_sorted].
  - constructor; constructor.
  - inversion S as [|? ? S1 S2]; subst. destruct (fle x y) eqn:E.
    + constructor; [assumption|]. constructor; [assumption|]. eapply Forall_impl; [|exact S2]. intros a Ha. eapply fle_trans; eauto.
    + constructor; [apply IH; [intros; apply Hl; now right|assumption]|].
      apply Forall_forall. intros a Ha. apply (Permutation_in _ (insert_sorted_perm x l)) in Ha. destruct Ha as [<-|Ha].
      * apply flt_fle. apply fle_false; [assumption|apply Hl; now left|assumption].
      * rewrite Forall_forall in S2. auto.
Qed.
Lemma py_sorted_ss l : (forall y, In y l -> isnan y = false) -> StronglySorted (fun a b => fle a b = true) (py_sorted l).
Proof.
  induction l as [|x l IH]; intros H; [constructor|]. cbn [py_sorted fold_right]. apply insert_sorted_ss.
  - apply H. now left.
  - intros y Hy. apply (Permutation_in _ (py_sorted_perm l)) in Hy. apply H. now right.
  - apply IH. intros; apply H; now right.
Qed.
Lemma filtering_fit_transform_ok hds eps X Y :
  X <> [] -> (forall p, In p (hd [] X) -> isnan (pq p) = false) ->
  exists ds, filtering_fit_transform hds eps X Y = filter_diagrams Y ds eps /\
    match hds with
    | Some l => Permutation ds (map fz l) /\ StronglySorted (fun a b => fle a b = true) ds
    | None => increasing ds /\ forall q, In q ds <-> In q (map pq (hd [] X))
    end.
Proof.
  intros HX HN. unfold filtering_fit_transform. destruct hds as [l|]; cbn [filtering_fit].
  - exists (py_sorted (map fz l)). split; [reflexivity|]. split; [apply py_sorted_perm|]. apply py_sorted_ss.
    intros y Hy. apply in_map_iff in Hy. destruct Hy as [z [<- _]]. reflexivity.
  - destruct X as [|x X]; [easy|]. exists (np_unique (map pq x)). split; [reflexivity|]. cbn [hd] in *. split; [|intros; apply np_unique_In'].
    apply np_unique_inc. intros q Hq. apply in_map_iff in Hq. destruct Hq as [p [<- Hp]]. auto.
Qed.
