(** Property C48: the gap clusterers. *)
From Coq Require Import Qround Sorted.
From Verif Require Import Np NpFacts Fl FlFacts CoverProofs GapModel.
Open Scope Z_scope.

(** ** Vocabulary *)
(** [z] is the integer part of [q]. *)
Definition is_floor (q : Qc) (z : Z) : Prop := (qz z <= q /\ q < qz (z + 1))%Qc.
(** [j] is the increase of the heights at position [g]; the first height counts
    as an increase from 0. *)
Definition jump (l : list Qc) (g : Z) (j : Qc) : Prop :=
  exists x, Znth l g = Some x /\
  ((g = 0 /\ j = x) \/ (0 < g /\ exists y, Znth l (g - 1) = Some y /\ j = (x - y)%Qc)).
(** The number of clusters [m] capped by the fraction [mf] of the samples. *)
Definition capped (mf : Qc) (n m c : Z) : Prop :=
  ((qz m <= mf * qz n)%Qc /\ c = m) \/ ((mf * qz n < qz m)%Qc /\ is_floor (mf * qz n)%Qc c).

(** ** Lemmas *)
Lemma qfloor_spec q : is_floor q (qfloor q).
Proof.
  unfold is_floor, qfloor, qz. split.
  - pose proof (Qfloor_le (this q)) as H. unfold Qcle. cbn [this Q2Qc]. rewrite Qred_correct. exact H.
  - pose proof (Qlt_floor (this q)) as H. unfold Qclt. cbn [this Q2Qc]. rewrite Qred_correct. exact H.
Qed.
Lemma is_floor_unique q z z' : is_floor q z -> is_floor q z' -> z = z'.
Proof.
  intros [H1 H2] [H3 H4]. assert (H : (qz z < qz (z' + 1))%Qc) by (eapply Qcle_lt_trans; eassumption).
  assert (H0 : (qz z' < qz (z + 1))%Qc) by (eapply Qcle_lt_trans; eassumption).
  apply (proj1 (qz_lt _ _)) in H. apply (proj1 (qz_lt _ _)) in H0. lia.
Qed.
Lemma qfloor_qz z : qfloor (qz z) = z.
Proof.
  apply (is_floor_unique (qz z)); [apply qfloor_spec|]. split; [apply Qcle_refl|]. apply qz_lt. lia.
Qed.
Lemma first_from_spec {A} (f : A -> bool) : forall l i,
  match first_from i f l with
  | Some g => i <= g /\ (exists x, Znth l (g - i) = Some x /\ f x = true) /\
              forall g' x, i <= g' < g -> Znth l (g' - i) = Some x -> f x = false
  | None => forall x, In x l -> f x = false
  end.
Proof.
  induction l as [|a l IH]; intros i; cbn; [intros x []|]. destruct (f a) eqn:E.
  - split; [lia|]. split; [|intros; lia]. exists a. now rewrite Z.sub_diag, Znth_0.
  - specialize (IH (i + 1)). destruct (first_from (i + 1) f l) as [g|].
    + destruct IH as [H1 [[x [Ex Fx]] H3]]. split; [lia|]. split.
      * exists x. rewrite Znth_cons by lia. now replace (g - i - 1) with (g - (i + 1)) by lia.
      * intros g' y Hg Ey. destruct (Z.eq_dec g' i) as [->|]; [rewrite Z.sub_diag, Znth_0 in Ey; congruence|].
        apply (H3 g'); [lia|]. rewrite Znth_cons in Ey by lia. now replace (g' - (i + 1)) with (g' - i - 1) by lia.
    + intros x [<-|I]; auto.
Qed.
Lemma first_index_spec {A} (f : A -> bool) l :
  match first_index f l with
  | Some g => 0 <= g /\ (exists x, Znth l g = Some x /\ f x = true) /\
              forall g' x, 0 <= g' < g -> Znth l g' = Some x -> f x = false
  | None => forall x, In x l -> f x = false
  end.
Proof.
  pose proof (first_from_spec f l 0) as H. unfold first_index. destruct (first_from 0 f l); [|assumption].
  rewrite Z.sub_0_r in H. destruct H as [H1 [H2 H3]]. split; [assumption|]. split; [assumption|].
  intros g' x Hg E. apply (H3 g'); [assumption|]. now rewrite Z.sub_0_r.
Qed.
Lemma diffs_jump : forall l prev g, 0 <= g -> Znth (diffs prev l) g =
  match Znth l g, Znth (prev :: l) g with Some x, Some y => Some (x - y)%Qc | _, _ => None end.
Proof.
  induction l as [|a l IH]; intros prev g Hg.
  - cbn [diffs]. rewrite !(Znth_None (@nil Qc)) by (change (zlen (@nil Qc)) with 0; lia). reflexivity.
  - cbn [diffs]. destruct (Z.eq_dec g 0) as [->|]; [now rewrite !Znth_0|].
    rewrite !(Znth_cons _ _ g) by lia. rewrite IH by lia. reflexivity.
Qed.
Lemma ediff_jump l g j : Znth (ediff1d l) g = Some j <-> jump l g j.
Proof.
  unfold jump. destruct l as [|a l]; cbn [ediff1d].
  - assert (N : Znth (@nil Qc) g = None) by (apply Znth_None; change (zlen (@nil Qc)) with 0; lia). rewrite N.
    split; [discriminate|]. now intros [x [E _]].
  - destruct (Z.lt_ge_cases g 0).
    { rewrite !Znth_None by lia. split; [discriminate|]. now intros [x [E _]]. }
    destruct (Z.eq_dec g 0) as [->|Ng].
    + rewrite !Znth_0. split.
      * intros [= ->]. exists j. split; [reflexivity|]. now left.
      * intros [x [E [[_ ->]|[C _]]]]; [congruence|lia].
    + rewrite (Znth_cons a (diffs a l)), diffs_jump by lia.
      rewrite (Znth_cons a l g) by lia. split.
      * destruct (Znth l (g - 1)) as [x|] eqn:Ex; [|discriminate]. destruct (Znth (a :: l) (g - 1)) as [y|] eqn:Ey; [|discriminate].
        intros [= <-]. exists x. split; [reflexivity|]. right. split; [lia|]. exists y. auto.
      * intros [x [-> [[C _]|[_ [y [-> ->]]]]]]; [lia|reflexivity].
Qed.
Lemma ediff_len l : zlen (ediff1d l) = zlen l.
Proof.
  destruct l as [|a l]; [reflexivity|]. cbn [ediff1d]. rewrite !zlen_cons. f_equal. revert a.
  induction l as [|b l IH]; intros a; [reflexivity|]. cbn [diffs]. now rewrite !zlen_cons, IH.
Qed.
Lemma cap_spec mf n m : exists c, (if Qcltb (mf * qz n)%Qc (qz m) then Ok (qfloor (mf * qz n)%Qc) else Ok (qfloor (qz m))) = Ok c /\ capped mf n m c.
Proof.
  destruct (Qcltb_spec (mf * qz n)%Qc (qz m)) as [L|L].
  - eexists. split; [reflexivity|]. right. split; [assumption|apply qfloor_spec].
  - eexists. split; [reflexivity|]. left. rewrite qfloor_qz. split; [now apply Qcnot_lt_le|reflexivity].
Qed.
Lemma capped_bounds mf n m c : (0 < mf)%Qc -> 1 <= m <= n -> capped mf n m c ->
  0 <= c <= m /\ (qz c <= mf * qz n)%Qc /\ ((1 <= mf * qz n)%Qc -> 1 <= c).
Proof.
  intros Hmf Hm [[L ->]|[L [F1 F2]]]; [repeat split; auto; lia|].
  assert (P : (0 <= mf * qz n)%Qc).
  { assert (0 <= qz n)%Qc by (rewrite <- qz_0; apply qz_le; lia). qnra. }
  assert (0 <= c).
  { assert (H : (qz 0 < qz (c + 1))%Qc) by (rewrite qz_0; eapply Qcle_lt_trans; eassumption).
    apply (proj1 (qz_lt _ _)) in H. lia. }
  assert (c < m).
  { apply qz_lt. eapply Qcle_lt_trans; eassumption. }
  split; [lia|]. split; [assumption|]. intros H1.
  assert (Q : (qz 1 < qz (c + 1))%Qc) by (rewrite qz_1; eapply Qcle_lt_trans; eassumption).
  apply (proj1 (qz_lt _ _)) in Q. lia.
Qed.
Lemma in_unit_true x : (0 < x)%Qc -> (x <= 1)%Qc -> in_unit x = true.
Proof. intros H1 H2. unfold in_unit. apply andb_true_iff. split; [now apply Qcltb_lt|now apply Qcleb_le]. Qed.
Lemma py_get_last {A} (l : list A) x : Znth l (zlen l - 1) = Some x -> py_get l (-1) = Ok x.
Proof.
  intros E. unfold py_get. change (-1 <? 0) with true. cbv iota. replace (-1 + zlen l) with (zlen l - 1) by lia. now rewrite E.
Qed.

(** ** FirstSimpleGap *)
(** The number of clusters is that obtained by undoing all merges from the first
    jump of relative size at least [r] on, capped by the fraction [mf] of the
    samples; without such a jump there is one cluster. *)
Theorem first_simple_gap_spec : forall r mf n l d,
  (0 < r)%Qc -> (r <= 1)%Qc -> (0 < mf)%Qc -> (mf <= 1)%Qc ->
  2 <= n -> zlen l = n - 1 -> Znth l (n - 2) = Some d ->
  exists c, first_simple_gap r mf n l = Ok c /\
  ((exists g j, jump l g j /\ (r * d <= j)%Qc /\
      (forall g' j', 0 <= g' < g -> jump l g' j' -> (j' < r * d)%Qc) /\
      capped mf n (n - g) c) \/
   ((forall g j, jump l g j -> (j < r * d)%Qc) /\ c = 1)).
Proof.
  intros r mf n l d Hr0 Hr1 Hm0 Hm1 Hn L Ed. unfold first_simple_gap.
  rewrite !in_unit_true by assumption. cbn [andb negb]. rewrite (proj2 (Z.eqb_neq n 1)) by lia.
  rewrite (py_get_last l d) by (rewrite L; now replace (n - 1 - 1) with (n - 2) by lia). cbn [bind].
  unfold num_clusters_simple. destruct l as [|a l'] eqn:El; [change (zlen (@nil Qc)) with 0 in L; lia|]. rewrite <- El in *. clear El a l'.
  pose proof (first_index_spec (fun x => Qcleb (r * d)%Qc x) (ediff1d l)) as F.
  destruct (first_index _ (ediff1d l)) as [g|].
  - destruct F as [Hg [[j [Ej Fj]] Mn]]. rewrite L. replace (n - 1 + 1) with n by lia.
    destruct (cap_spec mf n (n - g)) as [c [Ec C]]. cbv zeta. rewrite Ec. exists c. split; [reflexivity|]. left.
    exists g, j. split; [now apply ediff_jump|]. split; [now apply Qcleb_le|]. split; [|assumption].
    intros g' j' Hg' Ej'. apply ediff_jump in Ej'. specialize (Mn g' j' Hg' Ej'). cbn in Mn.
    apply Qcnot_le_lt. intros Q. apply Qcleb_le in Q. congruence.
  - exists 1. split; [reflexivity|]. right. split; [|reflexivity]. intros g j Ej. apply ediff_jump, Znth_In, F in Ej. cbn in Ej.
    apply Qcnot_le_lt. intros Q. apply Qcleb_le in Q. congruence.
Qed.
Theorem first_simple_gap_bounds : forall r mf n l c,
  2 <= n -> zlen l = n - 1 -> first_simple_gap r mf n l = Ok c ->
  0 <= c <= n /\ (c = 1 \/ (qz c <= mf * qz n)%Qc) /\ ((1 <= mf * qz n)%Qc -> 1 <= c).
Proof.
  intros r mf n l c Hn L E.
  assert (exists d, Znth l (n - 2) = Some d) as [d Ed] by (apply Znth_ex; lia).
  assert (V : (0 < r /\ r <= 1 /\ 0 < mf /\ mf <= 1)%Qc).
  { unfold first_simple_gap in E. destruct (in_unit r && in_unit mf) eqn:U; [|discriminate].
    unfold in_unit in U. rewrite !andb_true_iff, !Qcltb_lt, !Qcleb_le in U. tauto. }
  destruct V as [V1 [V2 [V3 V4]]].
  destruct (first_simple_gap_spec r mf n l d V1 V2 V3 V4 Hn L Ed) as [c' [E' C]].
  assert (c' = c) as -> by congruence.
  destruct C as [[g [j [[x [Ex _]] [_ [_ C]]]]]|[_ ->]]; [|repeat split; auto; lia].
  apply Znth_Some_lt in Ex. destruct (capped_bounds mf n (n - g) c V3 ltac:(lia) C) as [H1 [H2 H3]].
  repeat split; auto; lia.
Qed.
Theorem first_gap_single : forall r mf f b l, (0 < r)%Qc -> (r <= 1)%Qc -> (0 < mf)%Qc -> (mf <= 1)%Qc -> 0 <= f -> 1 <= b ->
  first_simple_gap r mf 1 l = Ok 1 /\ first_histogram_gap f b mf 1 l = Ok 1.
Proof.
  intros. unfold first_simple_gap, first_histogram_gap. rewrite !in_unit_true by assumption.
  rewrite (proj2 (Z.leb_le 0 f)), (proj2 (Z.leb_le 1 b)) by assumption. auto.
Qed.
(** A small max_fraction gives n_clusters_ = 0. *)
Theorem first_simple_gap_positive_refuted : exists r mf n l,
  (0 < r)%Qc /\ (r <= 1)%Qc /\ (0 < mf)%Qc /\ (mf <= 1)%Qc /\ zlen l = n - 1 /\ first_simple_gap r mf n l = Ok 0.
Proof.
  exists (Q2Qc (3 # 10)), (Q2Qc (1 # 10)), 3, [Q2Qc 1; Q2Qc 2].
  repeat split; try reflexivity; vm_compute; discriminate.
Qed.
(** Identical samples (all merge heights 0) are put into n_samples clusters. *)
Theorem first_simple_gap_identical : forall r n l, (0 < r)%Qc -> (r <= 1)%Qc ->
  2 <= n -> zlen l = n - 1 -> (forall x, In x l -> x = 0%Qc) -> first_simple_gap r 1 n l = Ok n.
Proof.
  intros r n l H1 H2 Hn L Z.
  assert (exists d, Znth l (n - 2) = Some d) as [d Ed] by (apply Znth_ex; lia).
  destruct (first_simple_gap_spec r 1 n l d H1 H2 eq_refl (Qcle_refl 1) Hn L Ed) as [c [-> C]].
  destruct (Znth_ex l 0) as [x Ex]; [lia|].
  assert (J : jump l 0 0%Qc). { exists x. split; [assumption|]. left. split; [reflexivity|]. symmetry. eapply Z, Znth_In, Ex. }
  assert (Hd : d = 0%Qc) by (eapply Z, Znth_In, Ed).
  assert (R0 : (r * d = 0)%Qc) by (rewrite Hd; ring).
  destruct C as [[g [j [[x' [Ex' _]] [_ [Mn C]]]]]|[C _]].
  - apply Znth_Some_lt in Ex'. destruct (Z.eq_dec g 0) as [->|Ng].
    + rewrite Z.sub_0_r in C. destruct C as [[_ ->]|[C _]]; [reflexivity|]. rewrite Qcmult_1_l in C. now apply Qclt_not_eq in C.
    + specialize (Mn 0 0%Qc ltac:(lia) J). rewrite R0 in Mn. now apply Qclt_not_eq in Mn.
  - specialize (C 0 0%Qc J). rewrite R0 in C. now apply Qclt_not_eq in C.
Qed.
Example first_simple_gap_ex : first_simple_gap (Q2Qc (3 # 10)) 1 5 (map qz [1; 2; 10; 11]) = Ok 3.
Proof. vm_compute. reflexivity. Qed.
Print Assumptions first_simple_gap_spec.

(** ** FirstHistogramGap *)
(** The range of the histogram: from the least to the largest value, or of length
    one around the only value. *)
Definition spans (l : list Qc) (lo hi : Qc) : Prop :=
  exists a b, In a l /\ In b l /\ (forall x, In x l -> a <= x /\ x <= b)%Qc /\
  ((a <> b /\ lo = a /\ hi = b) \/
   (a = b /\ lo = (a - Q2Qc (1 # 2))%Qc /\ hi = (b + Q2Qc (1 # 2))%Qc)).
(** Value x is in bin j of k equal bins of [lo, hi]. *)
Definition edge_at (lo hi : Qc) (k j : Z) : Qc := (lo + qz j * ((hi - lo) / qz k))%Qc.
Definition falls_in (lo hi : Qc) (k j : Z) (x : Qc) : Prop :=
  (edge_at lo hi k j <= x)%Qc /\ ((x < edge_at lo hi k (j + 1))%Qc \/ (j = k - 1 /\ x = hi)).
(** [m] elements of the list satisfy P (counted with repetitions). *)
Definition count_of {A} (P : A -> Prop) (l : list A) (m : Z) : Prop :=
  exists bs, Forall2 (fun x b => b = true <-> P x) l bs /\ m = zlen (filter (fun b => b) bs).
(** Bin j of k has fewer values than the threshold, or none if this is 0. *)
Definition sparse (f : Z) (l : list Qc) (lo hi : Qc) (k j : Z) : Prop :=
  0 <= j < k /\ exists m, count_of (falls_in lo hi k j) l m /\ (m = 0 \/ m < f).

Lemma count_filter {A} (P : A -> Prop) (f : A -> bool) l : (forall x, In x l -> (f x = true <-> P x)) ->
  count_of P l (zlen (filter f l)).
Proof.
  intros H. exists (map f l). split.
  - induction l as [|a l IH]; cbn; constructor; [apply H; now left|apply IH; intros; apply H; now right].
  - clear H. induction l as [|a l IH]; cbn; [reflexivity|]. destruct (f a); rewrite ?zlen_cons, IH; reflexivity.
Qed.
Lemma count_unique {A} (P : A -> Prop) l m m' : count_of P l m -> count_of P l m' -> m = m'.
Proof.
  intros [bs [F ->]] [bs' [F' ->]]. do 2 f_equal. revert bs' F'. induction F as [|a b l bs H F IH]; intros bs' F'; inversion F'; subst; [reflexivity|].
  f_equal; [|now apply IH]. destruct b, y; try reflexivity; [symmetry; apply H2|]; firstorder.
Qed.
Lemma qmin_spec l : l <> [] -> In (qmin l) l /\ forall x, In x l -> (qmin l <= x)%Qc.
Proof.
  destruct l as [|a l]; [easy|]. intros _. unfold qmin.
  assert (G : forall l m, let r := fold_left (fun m y => if Qcltb y m then y else m) l m in
    (r = m \/ In r l) /\ (r <= m)%Qc /\ forall x, In x l -> (r <= x)%Qc).
  { clear. induction l as [|b l IH]; intros m; cbn; [repeat split; auto using Qcle_refl; intros x []|].
    destruct (IH (if Qcltb b m then b else m)) as [H1 [H2 H3]]. set (r := fold_left _ l _) in *.
    destruct (Qcltb_spec b m) as [L|L].
    - split; [destruct H1 as [->|]; auto|]. split; [eapply Qcle_trans; [exact H2|now apply Qclt_le_weak]|].
      intros x [<-|I]; auto.
    - split; [destruct H1 as [->|]; auto|]. split; [assumption|]. intros x [<-|I]; auto.
      eapply Qcle_trans; [exact H2|now apply Qcnot_lt_le]. }
  destruct (G l a) as [H1 [H2 H3]]. split; [destruct H1 as [->|]; [now left|now right]|]. intros x [<-|I]; auto.
Qed.
Lemma qmax_spec l : l <> [] -> In (qmax l) l /\ forall x, In x l -> (x <= qmax l)%Qc.
Proof.
  destruct l as [|a l]; [easy|]. intros _. unfold qmax.
  assert (G : forall l m, let r := fold_left (fun m y => if Qcltb m y then y else m) l m in
    (r = m \/ In r l) /\ (m <= r)%Qc /\ forall x, In x l -> (x <= r)%Qc).
  { clear. induction l as [|b l IH]; intros m; cbn; [repeat split; auto using Qcle_refl; intros x []|].
    destruct (IH (if Qcltb m b then b else m)) as [H1 [H2 H3]]. set (r := fold_left _ l _) in *.
    destruct (Qcltb_spec m b) as [L|L].
    - split; [destruct H1 as [->|]; auto|]. split; [eapply Qcle_trans; [now apply Qclt_le_weak; exact L|exact H2]|].
      intros x [<-|I]; auto.
    - split; [destruct H1 as [->|]; auto|]. split; [assumption|]. intros x [<-|I]; auto.
      eapply Qcle_trans; [apply Qcnot_lt_le, L|exact H2]. }
  destruct (G l a) as [H1 [H2 H3]]. split; [destruct H1 as [->|]; [now left|now right]|]. intros x [<-|I]; auto.
Qed.
Lemma hist_range_spans l : l <> [] -> spans l (fst (hist_range l)) (snd (hist_range l)).
Proof.
  intros NE. destruct (qmin_spec l NE) as [I1 H1]. destruct (qmax_spec l NE) as [I2 H2].
  exists (qmin l), (qmax l). split; [assumption|]. split; [assumption|]. split; [auto|].
  unfold hist_range. destruct (Qceqb_spec (qmin l) (qmax l)); cbn [fst snd]; auto.
Qed.
Lemma spans_unique l lo hi lo' hi' : spans l lo hi -> spans l lo' hi' -> lo = lo' /\ hi = hi'.
Proof.
  intros [a [b [Ia [Ib [H C]]]]] [a' [b' [Ia' [Ib' [H' C']]]]].
  assert (a = a') as <- by (apply Qcle_antisym; [apply (H a' Ia')|apply (H' a Ia)]).
  assert (b = b') as <- by (apply Qcle_antisym; [apply (H' b Ib)|apply (H b' Ib')]).
  destruct C as [[? [? ?]]|[? [? ?]]], C' as [[? [? ?]]|[? [? ?]]]; subst; try contradiction; auto.
Qed.
Lemma spans_lt l lo hi : spans l lo hi -> (lo < hi)%Qc /\ forall x, In x l -> (lo <= x /\ x <= hi)%Qc.
Proof.
  intros [a [b [Ia [Ib [H C]]]]]. destruct C as [[N [-> ->]]|[-> [-> ->]]].
  - split; [|exact H]. destruct (Qcle_lt_or_eq a b) as [?|?]; [apply (H b Ib)|assumption|contradiction].
  - assert (P : (0 < Q2Qc (1 # 2))%Qc) by reflexivity. split; [qlra|]. intros x Hx. specialize (H x Hx). destruct H. split; qlra.
Qed.
Lemma edge_le lo hi k i j : (lo < hi)%Qc -> 1 <= k -> i <= j -> (edge_at lo hi k i <= edge_at lo hi k j)%Qc.
Proof.
  intros L Hk H. unfold edge_at.
  assert (Q : (0 <= (hi - lo) / qz k)%Qc).
  { assert (K : (0 < qz k)%Qc) by (rewrite <- qz_0; apply qz_lt; lia).
    assert (E : ((hi - lo) / qz k * qz k = hi - lo)%Qc) by (field; intros C; rewrite C in K; discriminate).
    set (w := ((hi - lo) / qz k)%Qc) in *. apply Qcnot_lt_le. intros N. qnra. }
  assert (I : (qz i <= qz j)%Qc) by now apply qz_le.
  set (w := ((hi - lo) / qz k)%Qc) in *. qnra.
Qed.
Lemma edge_last lo hi k : 1 <= k -> edge_at lo hi k k = hi.
Proof.
  intros Hk. unfold edge_at. assert (K : (0 < qz k)%Qc) by (rewrite <- qz_0; apply qz_lt; lia).
  field. intros C. rewrite C in K. discriminate.
Qed.
Lemma in_bin_falls l lo hi k j x : l <> [] -> spans l lo hi -> 0 <= j < k -> In x l -> (in_bin l k j x = true <-> falls_in lo hi k j x).
Proof.
  intros NE S Hj Ix. destruct (spans_unique _ _ _ _ _ (hist_range_spans l NE) S) as [E1 E2].
  assert (Ee : forall j, bin_edge l k j = edge_at lo hi k j).
  { intros i. unfold bin_edge, edge_at. destruct (hist_range l) as [a b]. cbn in E1, E2. now subst. }
  unfold in_bin, falls_in. rewrite !Ee, andb_true_iff, orb_true_iff, andb_true_iff, Qcleb_le, Qcltb_lt, Qcleb_le, Z.eqb_eq.
  destruct (spans_lt _ _ _ S) as [L R]. specialize (R x Ix). split; intros [H1 H2]; (split; [assumption|]).
  - destruct H2 as [H2|[-> H2]]; [now left|]. destruct (Qcle_lt_or_eq _ _ H2) as [?|Eq]; [now left|]. right.
    split; [reflexivity|]. rewrite Eq. replace (k - 1 + 1) with k by lia. apply edge_last. lia.
  - destruct H2 as [H2|[-> ->]]; [now left|]. right. split; [reflexivity|]. replace (k - 1 + 1) with k by lia. rewrite edge_last by lia. apply Qcle_refl.
Qed.
Lemma falls_unique lo hi k i j x : (lo < hi)%Qc -> 0 <= i < k -> 0 <= j < k -> falls_in lo hi k i x -> falls_in lo hi k j x -> i = j.
Proof.
  intros L. assert (G : forall i j, 0 <= i -> i < j < k -> falls_in lo hi k i x -> falls_in lo hi k j x -> False).
  { intros i' j' Hi Hj [A1 A2] [B1 B2]. destruct A2 as [A2|[-> _]]; [|lia].
    pose proof (edge_le lo hi k (i' + 1) j' L ltac:(lia) ltac:(lia)) as Q.
    apply (Qclt_not_le _ _ A2). eapply Qcle_trans; eassumption. }
  intros Hi Hj A B. destruct (Z.lt_trichotomy i j) as [H|[H|H]]; [|assumption|]; exfalso; [eapply (G i j)|eapply (G j i)]; eauto; lia.
Qed.
Lemma first_sparse f l lo hi k : 0 <= f -> 1 <= k -> l <> [] -> spans l lo hi ->
  match first_index (gap_bin f) (histogram l k) with
  | Some g => sparse f l lo hi k g /\ forall g', 0 <= g' < g -> ~ sparse f l lo hi k g'
  | None => forall g, ~ sparse f l lo hi k g
  end.
Proof.
  intros Hf Hk NE S.
  assert (Q : forall j, 0 <= j < k -> count_of (falls_in lo hi k j) l (zlen (filter (in_bin l k j) l))).
  { intros j Hj. apply count_filter. intros x Ix. now apply in_bin_falls. }
  assert (B : forall m, 0 <= m -> (gap_bin f m = true <-> m = 0 \/ m < f)).
  { intros m Hm. unfold gap_bin. destruct (Z.eqb_spec f 0); [rewrite Z.eqb_eq|rewrite Z.ltb_lt]; lia. }
  assert (SP : forall j m, 0 <= j < k -> Znth (histogram l k) j = Some m -> (gap_bin f m = true <-> sparse f l lo hi k j)).
  { intros j m Hj E. unfold histogram in E. rewrite Znth_tabZ in E by assumption. injection E as <-. rewrite B by apply zlen_nonneg.
    split.
    - intros H. split; [assumption|]. eauto.
    - intros [_ [m [C H]]]. now rewrite (count_unique _ _ _ _ (Q j Hj) C). }
  pose proof (first_index_spec (gap_bin f) (histogram l k)) as F. destruct (first_index _ _) as [g|].
  - destruct F as [Hg [[m [Em Fm]] Mn]]. pose proof (Znth_Some_lt _ _ _ Em) as Lg. unfold histogram in Lg. rewrite zlen_tabZ in Lg by lia.
    split; [now apply (SP g m)|]. intros g' Hg' C.
    destruct (Znth_ex (histogram l k) g') as [m' Em']; [unfold histogram; rewrite zlen_tabZ; lia|].
    apply (SP g' m' ltac:(lia) Em') in C. rewrite (Mn g' m' Hg' Em') in C. discriminate.
  - intros g C. pose proof (proj1 C) as Hg. destruct (Znth_ex (histogram l k) g) as [m Em]; [unfold histogram; rewrite zlen_tabZ; lia|].
    apply (SP g m Hg Em) in C. rewrite (F m) in C; [discriminate|]. eapply Znth_In, Em.
Qed.
(** With more bins than values, some bin is empty. *)
Lemma many_bins_gap f l lo hi k : 0 <= f -> l <> [] -> spans l lo hi -> zlen l < k -> exists g, sparse f l lo hi k g.
Proof.
  intros Hf NE S Hk. pose proof (zlen_nonneg l) as Ln.
  pose proof (first_sparse f l lo hi k Hf ltac:(lia) NE S) as F. destruct (first_index _ _) as [g|]; [destruct F; eauto|]. exfalso.
  assert (W : forall j, 0 <= j < k -> exists x, In x l /\ falls_in lo hi k j x).
  { intros j Hj. destruct (filter (in_bin l k j) l) as [|x t] eqn:E.
    - exfalso. apply (F j). split; [assumption|]. exists 0. split; [|now left].
      assert (C := count_filter (falls_in lo hi k j) (in_bin l k j) l). rewrite E in C. apply C. intros y Iy. now apply in_bin_falls.
    - exists x. assert (I : In x (filter (in_bin l k j) l)) by (rewrite E; now left). apply filter_In in I as [I E'].
      split; [assumption|]. now apply (in_bin_falls l). }
  assert (G : forall m, 0 <= m -> m <= k -> exists xs, zlen xs = m /\ NoDup xs /\ incl xs l /\ forall x, In x xs -> exists j, 0 <= j < m /\ falls_in lo hi k j x).
  { intros m Hm. pattern m. apply natlike_ind; [| |assumption].
    - intros _. exists []. repeat split; [constructor|intros ? []|intros ? []].
    - clear m Hm. intros m Hm IH Lm. destruct IH as [xs [L [D [I H]]]]; [lia|]. destruct (W m ltac:(lia)) as [x [Ix Fx]].
      exists (x :: xs). split; [rewrite zlen_cons; lia|]. split; [|split].
      + constructor; [|assumption]. intros C. apply H in C as [j [Hj Fj]].
        assert (m = j); [|lia]. eapply falls_unique; [apply (spans_lt _ _ _ S)| | |exact Fx|exact Fj]; lia.
      + now apply incl_cons.
      + intros y [<-|Iy]; [exists m; split; [lia|assumption]|]. destruct (H y Iy) as [j [Hj Fj]]. exists j. split; [lia|assumption]. }
  destruct (G k ltac:(lia) ltac:(lia)) as [xs [L [D [I _]]]]. pose proof (NoDup_incl_length D I) as Q. unfold zlen in *. lia.
Qed.
Lemma gap_loop_spec f l lo hi : 0 <= f -> l <> [] -> spans l lo hi -> forall fuel k, 1 <= k -> zlen l < k + Z.of_nat fuel ->
  exists k' g, gap_loop fuel l f k = Some (k', g) /\ k <= k' /\
    sparse f l lo hi k' g /\ (forall g', 0 <= g' < g -> ~ sparse f l lo hi k' g') /\
    (forall k'' g'', k <= k'' < k' -> ~ sparse f l lo hi k'' g'').
Proof.
  intros Hf NE S. induction fuel as [|fuel IH]; intros k Hk L; cbn [gap_loop];
    pose proof (first_sparse f l lo hi k Hf Hk NE S) as F; destruct (first_index _ _) as [g|].
  - exists k, g. destruct F. repeat split; auto; try lia; try apply H; intros; lia.
  - exfalso. destruct (many_bins_gap f l lo hi k Hf NE S ltac:(lia)) as [g G]. now apply (F g).
  - exists k, g. destruct F. repeat split; auto; try lia; try apply H; intros; lia.
  - destruct (IH (k + 1) ltac:(lia) ltac:(lia)) as [k' [g [E [H1 [H2 [H3 H4]]]]]]. exists k', g.
    split; [exact E|]. split; [lia|]. split; [exact H2|]. split; [exact H3|]. intros k'' g'' Hk''.
    destruct (Z.eq_dec k'' k) as [->|]; [apply F|apply H4; lia].
Qed.
(** Starting with [b] bins and adding one at a time, let k be the first number of
    bins for which some bin is sparse and g the first such bin: all merges above
    its left edge are undone, and the result is capped.  In particular the search
    ends. *)
Theorem first_histogram_gap_spec : forall f b mf n l,
  0 <= f -> 1 <= b -> (0 < mf)%Qc -> (mf <= 1)%Qc -> 3 <= n -> zlen l = n - 1 ->
  exists lo hi k g m c,
    spans l lo hi /\ b <= k /\ sparse f l lo hi k g /\
    (forall g', 0 <= g' < g -> ~ sparse f l lo hi k g') /\
    (forall k' g', b <= k' < k -> ~ sparse f l lo hi k' g') /\
    count_of (fun x => (x <= edge_at lo hi k g)%Qc) l m /\
    first_histogram_gap f b mf n l = Ok c /\ capped mf n (n - m) c.
Proof.
  intros f b mf n l Hf Hb Hm0 Hm1 Hn L. assert (NE : l <> []). { intros ->. change (zlen (@nil Qc)) with 0 in L. lia. }
  pose proof (hist_range_spans l NE) as S. set (lo := fst (hist_range l)) in *. set (hi := snd (hist_range l)) in *.
  destruct (gap_loop_spec f l lo hi Hf NE S (length l) b Hb) as [k [g [E [H1 [H2 [H3 H4]]]]]]. { unfold zlen. lia. }
  set (m := zlen (filter (fun x => Qcleb x (bin_edge l k g)) l)).
  assert (Em : bin_edge l k g = edge_at lo hi k g).
  { unfold bin_edge, edge_at, lo, hi. now destruct (hist_range l). }
  assert (Cm : count_of (fun x => (x <= edge_at lo hi k g)%Qc) l m).
  { unfold m. apply count_filter. intros x _. rewrite Em. apply Qcleb_le. }
  destruct (cap_spec mf n (n - m)) as [c [Ec C]]. exists lo, hi, k, g, m, c. repeat (split; [assumption|]). split; [|assumption].
  unfold first_histogram_gap. rewrite (proj2 (Z.leb_le 0 f) Hf), (proj2 (Z.leb_le 1 b) Hb), in_unit_true by assumption. cbn [andb negb].
  rewrite (proj2 (Z.eqb_neq n 1)) by lia. unfold num_clusters_histogram. rewrite (proj2 (Z.eqb_neq (zlen l) 1)) by lia.
  rewrite E. cbv zeta. fold m. rewrite L. replace (n - 1 + 1) with n by lia.
  destruct (Qceqb_spec mf 1) as [->|]; [|exact Ec].
  rewrite <- Ec. destruct (Qcltb_spec (1 * qz n)%Qc (qz (n - m))) as [Q|Q]; [|reflexivity].
  exfalso. rewrite Qcmult_1_l in Q. apply (proj1 (qz_lt _ _)) in Q. unfold m in Q. pose proof (zlen_nonneg (filter (fun x => Qcleb x (bin_edge l k g)) l)). lia.
Qed.
Theorem first_histogram_gap_two : forall f b mf d, 0 <= f -> 1 <= b -> (0 < mf)%Qc -> (mf <= 1)%Qc ->
  first_histogram_gap f b mf 2 [d] = Ok 1.
Proof.
  intros f b mf d Hf Hb H1 H2. unfold first_histogram_gap.
  rewrite (proj2 (Z.leb_le 0 f) Hf), (proj2 (Z.leb_le 1 b) Hb), in_unit_true by assumption. reflexivity.
Qed.
Theorem first_histogram_gap_bounds : forall f b mf n l c,
  3 <= n -> zlen l = n - 1 -> first_histogram_gap f b mf n l = Ok c ->
  0 <= c <= n /\ (qz c <= mf * qz n)%Qc /\ ((1 <= mf * qz n)%Qc -> 1 <= c).
Proof.
  intros f b mf n l c Hn L E.
  assert (V : 0 <= f /\ 1 <= b /\ (0 < mf)%Qc /\ (mf <= 1)%Qc).
  { unfold first_histogram_gap in E. destruct (negb _) eqn:U in E; [discriminate|]. apply negb_false_iff in U.
    unfold in_unit in U. rewrite !andb_true_iff, !Z.leb_le, !Qcltb_lt, !Qcleb_le in U. tauto. }
  destruct V as [V1 [V2 [V3 V4]]].
  destruct (first_histogram_gap_spec f b mf n l V1 V2 V3 V4 Hn L) as [lo [hi [k [g [m [c' [_ [_ [_ [_ [_ [C [E' Cc]]]]]]]]]]]]].
  assert (c' = c) as -> by congruence. destruct C as [bs [F ->]].
  assert (0 <= zlen (filter (fun b => b) bs) <= n - 1).
  { split; [apply zlen_nonneg|]. rewrite <- L, (Forall2_zlen _ _ _ F). unfold zlen. apply inj_le.
    clear. induction bs as [|[|] bs IH]; cbn; lia. }
  destruct (capped_bounds mf n (n - zlen (filter (fun b : bool => b) bs)) c V3 ltac:(lia) Cc) as [H1 [H2 H3]]. repeat split; auto; lia.
Qed.
Theorem first_histogram_gap_positive_refuted : exists f b mf n l,
  0 <= f /\ 1 <= b /\ (0 < mf)%Qc /\ (mf <= 1)%Qc /\ zlen l = n - 1 /\ first_histogram_gap f b mf n l = Ok 0.
Proof.
  exists 0, 5, (Q2Qc (1 # 10)), 3, [Q2Qc 1; Q2Qc 2].
  repeat split; try reflexivity; try lia; vm_compute; discriminate.
Qed.
(** Equal merge heights give one cluster per sample. *)
Example first_histogram_gap_equal : first_histogram_gap 0 5 1 4 [Q2Qc 1; Q2Qc 1; Q2Qc 1] = Ok 4.
Proof. vm_compute. reflexivity. Qed.
Example first_histogram_gap_ex : first_histogram_gap 0 5 1 5 (map qz [1; 2; 10; 11]) = Ok 3.
Proof. vm_compute. reflexivity. Qed.
Print Assumptions first_histogram_gap_spec.
