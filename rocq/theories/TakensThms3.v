(** C67: mutual information of a series and its delayed copy, from the values of the series. *)
From Coq Require Import Reals Lra.
From Verif Require Import Np NpFacts Fl RNp RNormFacts MetricSpec MetricProofs2 FeatProofs FilterThms TSModel TSProofs TakensModel TakensSpec LocalThms2 TakensThms TakensThms2.
From Verif Require NdFacts.
Open Scope Z_scope.

(** ** Bins *)
Lemma fold_Rmin_spec t : forall x, (fold_left Rmin t x <= x)%R /\ (forall y, In y t -> (fold_left Rmin t x <= y)%R) /\ In (fold_left Rmin t x) (x :: t).
Proof.
  induction t as [|y t IH]; intros x; cbn [fold_left]; [split; [lra|]; split; [easy|now left]|]. destruct (IH (Rmin x y)) as [H1 [H2 H3]].
  pose proof (Rmin_l x y). pose proof (Rmin_r x y). split; [lra|]. split.
  - intros z [<-|Hz]; [lra|]. now apply H2.
  - destruct H3 as [H3|H3]; [|right; now right]. rewrite <- H3. unfold Rmin. destruct (Rle_dec x y); [now left|right; now left].
Qed.
Lemma fold_Rmax_spec t : forall x, (x <= fold_left Rmax t x)%R /\ (forall y, In y t -> (y <= fold_left Rmax t x)%R) /\ In (fold_left Rmax t x) (x :: t).
Proof.
  induction t as [|y t IH]; intros x; cbn [fold_left]; [split; [lra|]; split; [easy|now left]|]. destruct (IH (Rmax x y)) as [H1 [H2 H3]].
  pose proof (Rmax_l x y). pose proof (Rmax_r x y). split; [lra|]. split.
  - intros z [<-|Hz]; [lra|]. now apply H2.
  - destruct H3 as [H3|H3]; [|right; now right]. rewrite <- H3. unfold Rmax. destruct (Rle_dec x y); [right; now left|now left].
Qed.
Lemma outer_edges_spec l : l <> [] -> is_interval l (fst (outer_edges l)) (snd (outer_edges l)).
Proof.
  destruct l as [|x t]; [easy|]. intros _. unfold outer_edges. destruct (fold_Rmin_spec t x) as [A1 [A2 A3]]. destruct (fold_Rmax_spec t x) as [B1 [B2 B3]].
  exists (fold_left Rmin t x), (fold_left Rmax t x). split; [assumption|]. split; [assumption|]. split; [intros y [<-|Hy]; split; auto|].
  destruct (Req_EM_T (fold_left Rmin t x) (fold_left Rmax t x)) as [E|E]; cbn [fst snd]; split; intros; easy.
Qed.
Lemma is_interval_unique l lo hi lo' hi' : is_interval l lo hi -> is_interval l lo' hi' -> lo = lo' /\ hi = hi'.
Proof.
  intros (a & b & Ia & Ib & H & N & E) (a' & b' & Ia' & Ib' & H' & N' & E').
  assert (a = a') by (apply Rle_antisym; [now apply H|now apply H']). assert (b = b') by (apply Rle_antisym; [now apply H'|now apply H]). subst.
  destruct (Req_dec a' b') as [Q|Q].
  - destruct (E Q), (E' Q). now subst.
  - destruct (N Q), (N' Q). now subst.
Qed.
Lemma is_interval_lt l lo hi : is_interval l lo hi -> (lo < hi)%R /\ forall x, In x l -> (lo <= x <= hi)%R.
Proof.
  intros (a & b & Ia & Ib & H & N & E). pose proof (proj2 (H a Ia)). destruct (Req_dec a b) as [Q|Q].
  - destruct (E Q). subst. split; [lra|]. intros x Hx. specialize (H x Hx). lra.
  - destruct (N Q). subst. split; [lra|]. intros x Hx. specialize (H x Hx). lra.
Qed.
Lemma in_bin_unique lo hi m i j x : (lo < hi)%R -> (x <= hi)%R -> in_bin lo hi m i x -> in_bin lo hi m j x -> i = j.
Proof.
  intros L X [Bi [Ai Ci]] [Bj [Aj Cj]]. assert (Hm : (0 < IZR m)%R) by (apply IZR_lt; lia). set (h := ((hi - lo) / IZR m)%R) in *.
  assert (Hh : (0 < h)%R) by (unfold h; apply Rdiv_lt_0_compat; lra). assert (Ehi : hi = (lo + IZR m * h)%R) by (unfold h; field; lra).
  assert (forall i j, (0 <= i < m) -> (0 <= j < m) -> (lo + IZR i * h <= x)%R -> ((x < lo + (IZR j + 1) * h)%R \/ j = m - 1 /\ x = hi) -> i <= j) as K.
  { clear - Hh Ehi. intros i j Bi Bj A [C|[-> _]]; [|lia]. assert (IZR i < IZR (j + 1))%R by (rewrite plus_IZR; nra). apply lt_IZR in H. lia. }
  apply Z.le_antisymm; now apply K.
Qed.
Lemma filter_prefix (f : Z -> bool) n j : 0 <= j <= n -> (forall k, 0 <= k < n -> (f k = true <-> k < j)) -> zlen (filter f (arange n)) = j.
Proof.
  intros Hj H. assert (N : NoDup (filter f (arange n))) by apply NoDup_filter, NoDup_arange.
  assert (zlen (arange j) = j) as L by (apply zlen_arange; lia).
  assert (zlen (filter f (arange n)) <= zlen (arange j)).
  { apply NoDup_incl_zlen; [assumption|]. intros k Hk. rewrite filter_In, In_arange in Hk. rewrite In_arange. destruct Hk as [B F]. apply (H k B) in F. lia. }
  assert (zlen (arange j) <= zlen (filter f (arange n))).
  { apply NoDup_incl_zlen; [apply NoDup_arange|]. intros k Hk. rewrite In_arange in Hk. rewrite filter_In, In_arange. split; [lia|]. apply H; lia. }
  lia.
Qed.
Lemma filter_map_length {A B} (g : A -> B) f l : zlen (filter f (map g l)) = zlen (filter (fun x => f (g x)) l).
Proof. induction l as [|x l IH]; [reflexivity|]. cbn [map filter]. destruct (f (g x)); rewrite ?zlen_cons, IH; reflexivity. Qed.
Lemma floor_ex x : (0 <= x)%R -> exists q : Z, 0 <= q /\ (IZR q <= x < IZR q + 1)%R.
Proof.
  intros Hx. exists (up x - 1). destruct (archimed x) as [A B]. rewrite minus_IZR. split; [|lra]. assert (IZR 0 < IZR (up x))%R by lra. apply lt_IZR in H. lia.
Qed.
Lemma bin_of_spec lo hi m x : (lo < hi)%R -> 1 <= m -> (lo <= x <= hi)%R -> in_bin lo hi m (bin_of (lo, hi) m x) x.
Proof.
  intros L M X. assert (Hm : (0 < IZR m)%R) by (apply IZR_lt; lia). unfold bin_of. cbn [fst snd]. set (h := ((hi - lo) / IZR m)%R).
  assert (Hh : (0 < h)%R) by (unfold h; apply Rdiv_lt_0_compat; lra). assert (Ehi : hi = (lo + IZR m * h)%R) by (unfold h; field; lra).
  destruct (floor_ex ((x - lo) / h)) as [q [Q0 [Q1 Q2]]]; [unfold Rdiv; apply Rmult_le_pos; [lra|left; now apply Rinv_0_lt_compat]|].
  assert (Ex : x = (lo + (x - lo) / h * h)%R) by (field; lra).
  assert (A1 : (lo + IZR q * h <= x)%R) by (rewrite Ex; nra). assert (A2 : (x < lo + (IZR q + 1) * h)%R) by (rewrite Ex; nra).
  assert (Qm : q <= m) by (apply le_IZR; nra).
  assert (C : zlen (filter (fun a => if Rle_dec a x then true else false) (tabZ (m + 1) (fun k => lo + IZR k * h)%R)) = q + 1).
  { assert (E : tabZ (m + 1) (fun k => lo + IZR k * h)%R = map (fun k => lo + IZR k * h)%R (arange (m + 1))) by (unfold arange; rewrite tabZ_map; reflexivity).
    rewrite E, filter_map_length. apply filter_prefix; [lia|]. intros k Hk. destruct (Rle_dec (lo + IZR k * h) x) as [G|G]; split; intros H; try easy.
    - assert (IZR k < IZR (q + 1))%R by (rewrite plus_IZR; nra). now apply lt_IZR.
    - exfalso. apply G. assert (IZR k <= IZR q)%R by (apply IZR_le; lia). nra. }
  rewrite C. unfold in_bin. fold h. destruct (Req_EM_T x hi) as [E|E].
  - assert (q = m). { apply Z.le_antisymm; [assumption|]. assert (IZR m < IZR (q + 1))%R by (rewrite plus_IZR; nra). apply lt_IZR in H. lia. }
    subst q. replace (m + 1 - 1 - 1) with (m - 1) by lia. split; [lia|]. split; [|right; split; [reflexivity|assumption]]. rewrite minus_IZR. nra.
  - assert (q < m). { destruct (Z.eq_dec q m) as [->|]; [|lia]. exfalso. lra. }
    replace (q + 1 - 1 - 0) with q by lia. split; [lia|]. split; [assumption|]. left. assumption.
Qed.

(** ** The score of a contingency table *)
Lemma zsum_IZR l : IZR (zsum l) = total (map IZR l).
Proof. induction l as [|x l IH]; [reflexivity|]. cbn [zsum fold_right map]. fold (zsum l). rewrite plus_IZR, IH. reflexivity. Qed.
Lemma zsum_tab m f : IZR (zsum (tabZ m f)) = Sum m (fun i => IZR (f i)).
Proof. rewrite zsum_IZR. unfold Sum. f_equal. unfold arange. rewrite !tabZ_map. reflexivity. Qed.
Lemma combine_map {A B C} (f : A -> B) (g : A -> C) l : combine (map f l) (map g l) = map (fun x => (f x, g x)) l.
Proof. induction l as [|x l IH]; [reflexivity|]. cbn. now rewrite IH. Qed.
Lemma tab_arange {A} m (f : Z -> A) : tabZ m f = map f (arange m).
Proof. unfold arange. rewrite tabZ_map. reflexivity. Qed.

Lemma score_table m (c : Z -> Z -> Z) : 1 <= m -> (forall i j, 0 <= i < m -> 0 <= j < m -> 0 <= c i j) ->
  mutual_info_score (tabZ m (fun i => tabZ m (c i))) = information m (fun i j => IZR (c i j)).
Proof.
  intros M C. set (cr := fun i j => IZR (c i j)). assert (CR : forall i j, 0 <= i < m -> 0 <= j < m -> (0 <= cr i j)%R) by (intros i j Hi Hj; apply (IZR_le 0); now apply C).
  unfold mutual_info_score. set (T := tabZ m (fun i => tabZ m (c i))).
  assert (EN : IZR (zsum (map zsum T)) = Sum m (fun i => Sum m (cr i))).
  { unfold T. rewrite tabZ_map, zsum_tab. apply Sum_ext. intros i Hi. apply zsum_tab. }
  rewrite EN. set (N := Sum m (fun i => Sum m (cr i))).
  assert (EM : match T with r :: _ => zlen r | [] => 0 end = m).
  { destruct (Znth_ex T 0) as [r Hr]; [unfold T; rewrite zlen_tabZ by lia; lia|]. unfold T in *. rewrite Znth_tabZ in Hr by lia. injection Hr as Hr.
    assert (Z0 : Znth (tabZ m (fun i => tabZ m (c i))) 0 = Some r) by (rewrite Znth_tabZ by lia; congruence). destruct (tabZ m (fun i => tabZ m (c i))) as [|r' T']; [discriminate|]. injection Z0 as ->. subst r. apply zlen_tabZ. lia. }
  rewrite EM.
  assert (EP : map (fun j => zsum (map (fun r => match Znth r j with Some c0 => c0 | None => 0 end) T)) (arange m) = map (fun j => zsum (tabZ m (fun i => c i j))) (arange m)).
  { apply map_ext_in. intros j Hj. apply In_arange in Hj. f_equal. unfold T. rewrite tabZ_map. apply tabZ_ext. intros i Hi. rewrite Znth_tabZ by lia. reflexivity. }
  rewrite EP. unfold T. rewrite tabZ_map. rewrite !tab_arange, combine_map, map_map. unfold information. fold N. unfold Sum at 1. change rsum with total. f_equal. apply map_ext_in. intros i Hi. apply In_arange in Hi.
  cbn [fst snd]. rewrite tab_arange, combine_map, map_map. unfold Sum at 1. f_equal. apply map_ext_in. intros j Hj. apply In_arange in Hj. cbn [fst snd].
  destruct (Z.eqb_spec (c i j) 0) as [E|E].
  - change (cr i j) with (IZR (c i j)). rewrite E. now destruct (Req_EM_T 0 0).
  - destruct (Req_EM_T (cr i j) 0) as [E'|_]; [exfalso; apply E; now apply eq_IZR in E'|].
    rewrite mult_IZR. rewrite <- tab_arange, !zsum_tab. fold (cr i j). change (Sum m (fun j => IZR (c i j))) with (Sum m (cr i)). change (Sum m (fun i => IZR (c i j))) with (Sum m (fun i => cr i j)).
    change (Sum m (fun j0 => (IZR (c i j0) / N)%R)) with (Sum m (fun j0 => (cr i j0 / N)%R)). change (Sum m (fun i' => (IZR (c i' j) / N)%R)) with (Sum m (fun i' => (cr i' j / N)%R)).
    rewrite (Sum_div m (cr i) N), (Sum_div m (fun i' => cr i' j) N).
    assert (P : (0 < cr i j)%R) by (apply (IZR_lt 0); specialize (C i j Hi Hj); lia).
    assert (Pr : (0 < Sum m (cr i))%R) by (pose proof (Sum_le m (cr i) j (fun k Hk => CR i k Hi Hk) Hj); lra).
    assert (Pc : (0 < Sum m (fun i' => cr i' j))%R) by (pose proof (Sum_le m (fun i' => cr i' j) i (fun k Hk => CR k j Hk Hj) Hi); cbv beta in *; lra).
    assert (PN : (0 < N)%R).
    { assert (G : forall i, 0 <= i < m -> (0 <= Sum m (cr i))%R) by (intros k Hk; apply Sum_nonneg; intros j' Hj'; now apply CR). pose proof (Sum_le m (fun i => Sum m (cr i)) i G Hi). cbv beta in H. fold N in H. lra. }
    rewrite (ln_mult (Sum m (cr i)) (Sum m (fun i0 => cr i0 j))) by assumption.
    replace (cr i j / N / (Sum m (cr i) / N * (Sum m (fun i' => cr i' j) / N)))%R with (cr i j * N * / (Sum m (cr i) * Sum m (fun i' => cr i' j)))%R by (field; lra).
    assert (0 < Sum m (cr i) * Sum m (fun i' => cr i' j))%R by nra. rewrite ln_mult; [|nra|now apply Rinv_0_lt_compat]. rewrite ln_Rinv by assumption. rewrite !ln_mult by assumption. ring.
Qed.
