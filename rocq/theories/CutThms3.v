(** Property C76: labels and attributes of the gap clusterers. *)
From Coq Require Import String Sorting.Permutation Sorting.Sorted.
From Verif Require Import Np NpFacts Fl FlFacts KnnThms CoverProofs GapModel GapThms CutModel CutSpec CutThms CutThms2.
Open Scope Z_scope.

(** ** The cut *)
(** Cutting the tree into k clusters undoes all but the first n - k merges: the labels 0, ..., k-1
    number the groups of samples joined by these merges. *)
Theorem hc_cut_spec : forall push pushpop n children k,
  heapq push pushpop -> 2 <= n -> merge_tree n children -> 1 <= k <= n ->
  exists labels, hc_cut push pushpop k children n = Ok labels /\
    numbers n k (joined n children (n - k)) labels.
Proof. intros push pushpop n children k Hq Hn T Hk. now apply hc_cut_ok. Qed.
(** More clusters than samples cannot be asked for. *)
Theorem hc_cut_too_many : forall push pushpop n children k, n < k -> hc_cut push pushpop k children n = Err ValueError.
Proof. intros push pushpop n children k H. unfold hc_cut. now rewrite (proj2 (Z.ltb_lt n k) H). Qed.
(** Asking for more clusters refines the clusters. *)
Theorem hc_cut_nested : forall push pushpop n children k k' labels labels' x y l lx ly,
  heapq push pushpop -> 2 <= n -> merge_tree n children -> 1 <= k <= k' -> k' <= n ->
  hc_cut push pushpop k children n = Ok labels -> hc_cut push pushpop k' children n = Ok labels' ->
  Znth labels' x = Some l -> Znth labels' y = Some l -> Znth labels x = Some lx -> Znth labels y = Some ly -> lx = ly.
Proof.
  intros push pushpop n children k k' labels labels' x y l lx ly Hq Hn T Hk Hk' E E' Ex' Ey' Ex Ey.
  destruct (hc_cut_ok push pushpop Hq n children T k Hn ltac:(lia)) as [o [Eo [_ [_ N]]]].
  destruct (hc_cut_ok push pushpop Hq n children T k' Hn ltac:(lia)) as [o' [Eo' [_ [_ N']]]].
  rewrite E in Eo. injection Eo as <-. rewrite E' in Eo'. injection Eo' as <-.
  apply (N x y lx ly Ex Ey). destruct (proj1 (N' x y l l Ex' Ey') eq_refl) as [v [Hv B]]. exists v. split; [lia|exact B].
Qed.

(** ** Attributes *)
Definition known (linkage affinity : string) : Prop :=
  (linkage = "ward" /\ affinity = "euclidean")%string \/ (linkage = "complete" \/ linkage = "average" \/ linkage = "single")%string.
(** What scikit-learn is asked for *)
Definition request (linkage affinity : string) : string * option string :=
  (linkage, if String.eqb linkage "ward" then None else Some affinity).

Section Fit.
Variable push pushpop : list Z -> Z -> list Z.
Hypothesis Hq : heapq push pushpop.
Variable X : Type.
Variable check : X -> res Z.
Variable builder : string -> option string -> X -> res (list (Z * Z) * Z * list Qc).

Lemma build_known linkage affinity x : known linkage affinity ->
  build_tree X builder linkage affinity x = builder linkage (if String.eqb linkage "ward" then None else Some affinity) x.
Proof. unfold build_tree. intros [[-> ->]|[->|[->| ->]]]; reflexivity. Qed.
Lemma build_unknown linkage affinity x : ~ known linkage affinity -> build_tree X builder linkage affinity x = Err ValueError.
Proof.
  intros K. unfold build_tree, known in *. destruct (String.eqb_spec linkage "ward") as [->|N1]; cbn [andb].
  - destruct (String.eqb_spec affinity "euclidean") as [->|N2]; cbn [negb]; [tauto|reflexivity].
  - cbn [existsb]. destruct (String.eqb_spec linkage "ward"); [tauto|]. destruct (String.eqb_spec linkage "complete"); [tauto|].
    destruct (String.eqb_spec linkage "average"); [tauto|]. destruct (String.eqb_spec linkage "single"); [tauto|]. reflexivity.
Qed.
Lemma fit_gap_ok valid count linkage affinity st x n children distances k :
  check x = Ok n -> 2 <= n -> valid = true -> known linkage affinity ->
  builder linkage (if String.eqb linkage "ward" then None else Some affinity) x = Ok (children, n, distances) ->
  merge_tree n children -> count distances = Ok k -> k <= n ->
  exists labels, fit_gap push pushpop X check builder valid count linkage affinity st x =
    (Attrs (Some labels) (Some k) (Some children) (Some n) (Some distances), Ok tt) /\
    numbers n (Z.max 1 k) (joined n children (n - Z.max 1 k)) labels.
Proof.
  intros C Hn V K B T Ec Hk. unfold fit_gap. rewrite C, V. cbn [negb]. rewrite (proj2 (Z.eqb_neq n 1)) by lia.
  rewrite build_known, B, Ec by assumption.
  destruct (hc_cut_ok push pushpop Hq n children T (Z.max 1 k) Hn ltac:(lia)) as [labels [El Nl]].
  assert (Ek : hc_cut push pushpop k children n = hc_cut push pushpop (Z.max 1 k) children n).
  { unfold hc_cut. rewrite !(proj2 (Z.ltb_ge n _)) by lia. replace (Z.to_nat (Z.max 1 k - 1)) with (Z.to_nat (k - 1)) by lia. reflexivity. }
  rewrite Ek, El. exists labels. auto.
Qed.
Lemma simple_count r mf n l : (0 < r)%Qc -> (r <= 1)%Qc -> (0 < mf)%Qc -> (mf <= 1)%Qc -> n <> 1 ->
  (do d <- py_get l (-1); num_clusters_simple l (r * d)%Qc (Some mf)) = first_simple_gap r mf n l.
Proof.
  intros. unfold first_simple_gap. rewrite !in_unit_true by assumption. cbn [andb negb]. now rewrite (proj2 (Z.eqb_neq n 1)) by assumption.
Qed.
Lemma histogram_count f b mf n l : 0 <= f -> 1 <= b -> (0 < mf)%Qc -> (mf <= 1)%Qc -> n <> 1 ->
  num_clusters_histogram l f b mf = first_histogram_gap f b mf n l.
Proof.
  intros. unfold first_histogram_gap. rewrite in_unit_true, (proj2 (Z.leb_le 0 f)), (proj2 (Z.leb_le 1 b)) by assumption. cbn [andb negb].
  now rewrite (proj2 (Z.eqb_neq n 1)) by assumption.
Qed.

(** FirstSimpleGap.fit stores scikit-learn's tree, the number of clusters and the labels of the cut of the
    tree, whatever was fitted before. *)
Theorem simple_gap_fit : forall linkage affinity r mf st x n children distances d,
  (0 < r)%Qc -> (r <= 1)%Qc -> (0 < mf)%Qc -> (mf <= 1)%Qc -> known linkage affinity ->
  check x = Ok n -> 2 <= n ->
  builder (fst (request linkage affinity)) (snd (request linkage affinity)) x = Ok (children, n, distances) ->
  merge_tree n children -> zlen distances = n - 1 -> Znth distances (n - 2) = Some d ->
  exists c labels,
    fit_simple push pushpop X check builder linkage affinity r mf st x =
      (Attrs (Some labels) (Some c) (Some children) (Some n) (Some distances), Ok tt) /\
    numbers n (Z.max 1 c) (joined n children (n - Z.max 1 c)) labels /\
    ((exists g j, jump distances g j /\ (r * d <= j)%Qc /\
        (forall g' j', 0 <= g' < g -> jump distances g' j' -> (j' < r * d)%Qc) /\
        capped mf n (n - g) c) \/
     ((forall g j, jump distances g j -> (j < r * d)%Qc) /\ c = 1)).
Proof.
  intros linkage affinity r mf st x n children distances d H1 H2 H3 H4 K C Hn B T L Ed.
  destruct (first_simple_gap_spec r mf n distances d H1 H2 H3 H4 Hn L Ed) as [c [Ec S]].
  destruct (first_simple_gap_bounds r mf n distances c Hn L Ec) as [Bc _].
  destruct (fit_gap_ok (in_unit r && in_unit mf) (fun distances => do d <- py_get distances (-1); num_clusters_simple distances (r * d)%Qc (Some mf))
              linkage affinity st x n children distances c C Hn) as [labels [E N]]; try assumption.
  - now rewrite !in_unit_true.
  - rewrite (simple_count r mf n); try assumption. lia.
  - lia.
  - exists c, labels. split; [exact E|]. auto.
Qed.
(** The same for FirstHistogramGap. *)
Theorem histogram_gap_fit : forall linkage affinity f b mf st x n children distances,
  0 <= f -> 1 <= b -> (0 < mf)%Qc -> (mf <= 1)%Qc -> known linkage affinity ->
  check x = Ok n -> 3 <= n ->
  builder (fst (request linkage affinity)) (snd (request linkage affinity)) x = Ok (children, n, distances) ->
  merge_tree n children -> zlen distances = n - 1 ->
  exists lo hi k g m c labels,
    fit_histogram push pushpop X check builder linkage affinity f b mf st x =
      (Attrs (Some labels) (Some c) (Some children) (Some n) (Some distances), Ok tt) /\
    numbers n (Z.max 1 c) (joined n children (n - Z.max 1 c)) labels /\
    spans distances lo hi /\ b <= k /\ sparse f distances lo hi k g /\
    (forall g', 0 <= g' < g -> ~ sparse f distances lo hi k g') /\
    (forall k' g', b <= k' < k -> ~ sparse f distances lo hi k' g') /\
    count_of (fun x => (x <= edge_at lo hi k g)%Qc) distances m /\ capped mf n (n - m) c.
Proof.
  intros linkage affinity f b mf st x n children distances H1 H2 H3 H4 K C Hn B T L.
  destruct (first_histogram_gap_spec f b mf n distances H1 H2 H3 H4 Hn L) as [lo [hi [k [g [m [c [S1 [S2 [S3 [S4 [S5 [S6 [Ec S7]]]]]]]]]]]]].
  destruct (first_histogram_gap_bounds f b mf n distances c Hn L Ec) as [Bc _].
  destruct (fit_gap_ok ((0 <=? f) && (1 <=? b) && in_unit mf) (fun distances => num_clusters_histogram distances f b mf)
              linkage affinity st x n children distances c C ltac:(lia)) as [labels [E N]]; try assumption.
  - now rewrite in_unit_true, (proj2 (Z.leb_le 0 f)), (proj2 (Z.leb_le 1 b)).
  - rewrite (histogram_count f b mf n); try assumption. lia.
  - lia.
  - exists lo, hi, k, g, m, c, labels. split; [exact E|]. split; [exact N|]. auto 10.
Qed.
(** Two samples: always one cluster. *)
Theorem histogram_gap_fit_two : forall linkage affinity f b mf st x children h,
  0 <= f -> 1 <= b -> (0 < mf)%Qc -> (mf <= 1)%Qc -> known linkage affinity -> check x = Ok 2 ->
  builder (fst (request linkage affinity)) (snd (request linkage affinity)) x = Ok (children, 2, [h]) -> merge_tree 2 children ->
  fit_histogram push pushpop X check builder linkage affinity f b mf st x =
    (Attrs (Some [0; 0]) (Some 1) (Some children) (Some 2) (Some [h]), Ok tt).
Proof.
  intros linkage affinity f b mf st x children h H1 H2 H3 H4 K C B T.
  destruct (fit_gap_ok ((0 <=? f) && (1 <=? b) && in_unit mf) (fun distances => num_clusters_histogram distances f b mf)
              linkage affinity st x 2 children [h] 1 C ltac:(lia)) as [labels [E [L [I _]]]]; try assumption.
  - now rewrite in_unit_true, (proj2 (Z.leb_le 0 f)), (proj2 (Z.leb_le 1 b)).
  - rewrite (histogram_count f b mf 2); try assumption; [|lia]. now apply first_histogram_gap_two.
  - lia.
  - unfold fit_histogram. rewrite E. do 2 f_equal. f_equal. 
    destruct labels as [|p [|q [|]]]; rewrite ?zlen_cons in L; change (zlen (@nil Z)) with 0 in L; try lia; [|pose proof (zlen_nonneg l); lia].
    pose proof (proj1 (I p) ltac:(now left)). pose proof (proj1 (I q) ltac:(right; now left)). repeat f_equal; lia.
Qed.

(** ** Refusals *)
(** Wrong parameters, unknown linkages, and Ward's linkage with a distance other than the Euclidean one are
    refused and leave the attributes alone, as do errors of the check of the data and of scikit-learn.  A
    single sample is clustered without looking at the linkage. *)
Theorem gap_fit_refuses : forall linkage affinity r f b mf st x,
  let simple := fit_simple push pushpop X check builder linkage affinity r mf st x in
  let histogram := fit_histogram push pushpop X check builder linkage affinity f b mf st x in
  (forall e, check x = Err e -> simple = (st, Err e) /\ histogram = (st, Err e)) /\
  (forall n, check x = Ok n ->
    (~ (0 < r /\ r <= 1 /\ 0 < mf /\ mf <= 1)%Qc -> simple = (st, Err ValueError)) /\
    (~ (0 <= f /\ 1 <= b /\ (0 < mf /\ mf <= 1)%Qc) -> histogram = (st, Err ValueError)) /\
    (n <> 1 -> ~ known linkage affinity -> simple = (st, Err ValueError) /\ histogram = (st, Err ValueError)) /\
    (forall e, n <> 1 -> known linkage affinity -> (0 < r /\ r <= 1 /\ 0 < mf /\ mf <= 1)%Qc -> 0 <= f -> 1 <= b ->
       builder (fst (request linkage affinity)) (snd (request linkage affinity)) x = Err e -> simple = (st, Err e) /\ histogram = (st, Err e)) /\
    (n = 1 -> (0 < r /\ r <= 1 /\ 0 < mf /\ mf <= 1)%Qc -> 0 <= f -> 1 <= b ->
       forall fit, fit = simple \/ fit = histogram ->
       fit = (Attrs (Some [0]) (Some 1) (children_ st) (n_leaves_ st) (distances_ st), Ok tt))).
Proof.
  intros linkage affinity r f b mf st x simple histogram. unfold simple, histogram, fit_simple, fit_histogram, fit_gap.
  assert (U : forall q, in_unit q = true <-> (0 < q /\ q <= 1)%Qc).
  { intros q. unfold in_unit. now rewrite andb_true_iff, Qcltb_lt, Qcleb_le. }
  split; [intros e ->; auto|]. intros n ->.
  assert (V1 : in_unit r && in_unit mf = true <-> (0 < r /\ r <= 1 /\ 0 < mf /\ mf <= 1)%Qc) by (rewrite andb_true_iff, !U; tauto).
  assert (V2 : (0 <=? f) && (1 <=? b) && in_unit mf = true <-> 0 <= f /\ 1 <= b /\ (0 < mf /\ mf <= 1)%Qc) by (rewrite !andb_true_iff, U, !Z.leb_le; tauto).
  split; [|split; [|split; [|split]]].
  - intros N. destruct (in_unit r && in_unit mf); [tauto|reflexivity].
  - intros N. destruct ((0 <=? f) && (1 <=? b) && in_unit mf); [tauto|reflexivity].
  - intros N1 K. rewrite (proj2 (Z.eqb_neq n 1)), build_unknown by assumption. split; [destruct (in_unit r && in_unit mf)|destruct ((0 <=? f) && (1 <=? b) && in_unit mf)]; reflexivity.
  - intros e N1 K P Hf Hb B. rewrite (proj2 V1) by exact P. rewrite (proj2 V2) by tauto. cbn [negb].
    rewrite (proj2 (Z.eqb_neq n 1)), build_known by assumption. cbn [fst snd request] in B. rewrite B. auto.
  - intros -> P Hf Hb fit. rewrite (proj2 V1) by exact P. rewrite (proj2 V2) by tauto. cbn [negb]. intros [->| ->]; reflexivity.
Qed.
(** fit_predict returns labels_. *)
Theorem gap_fit_predict : forall fit st x st' l, 
  fit_predict X fit st x = (st', Ok l) <-> fit st x = (st', Ok tt) /\ labels_ st' = Some l.
Proof.
  intros fit st x st' l. unfold fit_predict. destruct (fit st x) as [st1 [[]|e]].
  - destruct (labels_ st1) as [l1|] eqn:E; split.
    + intros Q. injection Q as <- <-. auto.
    + intros [Q Q']. injection Q as <-. congruence.
    + discriminate.
    + intros [Q Q']. injection Q as <-. congruence.
  - split; [discriminate|]. intros [Q _]. discriminate.
Qed.

(** ** Single linkage *)
Lemma numbers_weaken n k (R R' : Z -> Z -> Prop) labels : (forall x y, 0 <= x < n -> 0 <= y < n -> (R x y <-> R' x y)) -> numbers n k R labels -> numbers n k R' labels.
Proof.
  intros H [L [I N]]. split; [exact L|]. split; [exact I|]. intros x y lx ly Ex Ey. rewrite (N x y lx ly Ex Ey).
  apply Znth_Some_lt in Ex. apply Znth_Some_lt in Ey. apply H; lia.
Qed.
Lemma jump_unique l g j g' j' (r : Qc) : jump l g j -> (r <= j)%Qc -> (forall g' j', 0 <= g' < g -> jump l g' j' -> (j' < r)%Qc) ->
  jump l g' j' -> (r <= j')%Qc -> (forall g j, 0 <= g < g' -> jump l g j -> (j < r)%Qc) -> g = g'.
Proof.
  intros J Q F J' Q' F'. assert (0 <= g) by (destruct J as [? [E _]]; apply Znth_Some_lt in E; lia).
  assert (0 <= g') by (destruct J' as [? [E _]]; apply Znth_Some_lt in E; lia).
  destruct (Z.lt_trichotomy g g') as [H1|[H1|H1]]; [|assumption|]; exfalso.
  - apply (Qclt_not_le _ _ (F' g j ltac:(lia) J) Q).
  - apply (Qclt_not_le _ _ (F g' j' ltac:(lia) J') Q').
Qed.
(** FirstSimpleGap with single linkage.  Let h be the height of the first merge whose height exceeds the one before
    (0 before the first) by at least w, the relative gap size times the largest height.  If the number of
    clusters this leaves is within max_fraction, samples have the same label exactly if a chain of samples
    leads from one to the other in steps of at most h - w, and samples with different labels have
    distance at least h.  If there is no such merge, all samples have the same label. *)
Theorem simple_gap_single : forall affinity r mf st x n D children distances d,
  (0 < r)%Qc -> (r <= 1)%Qc -> (0 < mf)%Qc -> (mf <= 1)%Qc ->
  check x = Ok n -> 2 <= n -> builder "single" (Some affinity) x = Ok (children, n, distances) ->
  single_linkage n D children distances -> (forall x y, 0 <= x < n -> 0 <= y < n -> D x y = D y x) ->
  Znth distances (n - 2) = Some d -> (0 < d)%Qc ->
  exists labels st', fit_simple push pushpop X check builder "single" affinity r mf st x = (st', Ok tt) /\ labels_ st' = Some labels /\
  (forall g j h, Znth distances g = Some h -> jump distances g j -> (r * d <= j)%Qc ->
     (forall g' j', 0 <= g' < g -> jump distances g' j' -> (j' < r * d)%Qc) -> (qz (n - g) <= mf * qz n)%Qc ->
     n_clusters_ st' = Some (n - g) /\ numbers n (n - g) (chain n D (h - r * d)) labels /\
     (forall x y lx ly, Znth labels x = Some lx -> Znth labels y = Some ly -> lx <> ly -> (h <= D x y)%Qc)) /\
  ((forall g j, jump distances g j -> (j < r * d)%Qc) -> n_clusters_ st' = Some 1 /\ numbers n 1 (fun _ _ => True) labels).
Proof.
  intros affinity r mf st x n D children distances d H1 H2 H3 H4 C Hn B SL Sy Ed Pd. pose proof SL as [T [L SLd]].
  destruct (simple_gap_fit "single" affinity r mf st x n children distances d H1 H2 H3 H4) as [c [labels [E [N S]]]]; try assumption.
  { right. auto. }
  exists labels. eexists. split; [exact E|]. cbn [labels_ n_clusters_]. split; [reflexivity|]. split.
  - intros g j h Eh J Q F Cap. assert (Rg := Znth_Some_lt _ _ _ Eh). rewrite L in Rg.
    destruct S as [[g0 [j0 [J0 [Q0 [F0 Cp]]]]]|[S _]]; [|exfalso; apply (Qclt_not_le _ _ (S _ _ J) Q)].
    assert (g0 = g) as -> by (eapply jump_unique; eauto).
    assert (c = n - g) as -> by (destruct Cp as [[_ ->]|[Cp _]]; [reflexivity|exfalso; apply (Qclt_not_le _ _ Cp Cap)]).
    replace (Z.max 1 (n - g)) with (n - g) in N by lia. replace (n - (n - g)) with g in N by lia.
    assert (Pw : (0 < r * d)%Qc) by qnra.
    assert (Lo : forall i di, 0 <= i < g -> Znth distances i = Some di -> (di <= h - r * d)%Qc).
    { intros i di Ri Ei. destruct J as [h' [Eh' [[-> _]|[Pg [y [Ey ->]]]]]]; [lia|]. rewrite Eh in Eh'. injection Eh' as <-.
      assert (di <= y)%Qc by (eapply (heights_sorted n D children distances SL Sy i (g - 1)); eauto; lia). qlra. }
    assert (Hi : forall dg, Znth distances g = Some dg -> (h - r * d < dg)%Qc).
    { intros dg Eg. rewrite Eh in Eg. injection Eg as <-. qlra. }
    pose proof (joined_chain n D children distances SL Sy (h - r * d)%Qc g Hn ltac:(lia) Lo Hi) as JC.
    split; [reflexivity|]. split; [exact (numbers_weaken n (n - g) _ _ labels JC N)|].
    intros p q lp lq Ep Eq Nl. destruct N as [Ll [_ Nn]]. destruct (Znth_ex children g) as [[a b] Eab]; [destruct T; lia|].
    destruct (SLd g a b h Eab Eh) as [_ Mn].
    pose proof (Znth_Some_lt _ _ _ Ep). pose proof (Znth_Some_lt _ _ _ Eq).
    apply Mn; [lia|lia|]. intros Jn. apply Nl. now apply (Nn p q lp lq Ep Eq).
  - intros S'. destruct S as [[g0 [j0 [J0 [Q0 _]]]]|[_ ->]]; [exfalso; apply (Qclt_not_le _ _ (S' _ _ J0) Q0)|]. split; [reflexivity|].
    revert N. apply numbers_weaken. intros p q Hp Hq'. split; [auto|]. intros _. now apply (joined_all n D children distances SL).
Qed.

Lemma count_sorted (s : Qc) : forall l m, StronglySorted Qcle l -> count_of (fun x => (x <= s)%Qc) l m ->
  (forall i x, 0 <= i < m -> Znth l i = Some x -> (x <= s)%Qc) /\ (forall x, Znth l m = Some x -> (s < x)%Qc).
Proof.
  induction l as [|a l IH]; intros m So Cn; destruct Cn as [bs [F ->]].
  - inversion F; subst. split; intros * H; intros; try discriminate. apply Znth_Some_lt in H0. change (zlen (@nil Qc)) with 0 in H0. lia.
  - inversion F as [|? t ? bt Hab Ft]; subst. apply StronglySorted_inv in So. destruct So as [So Fa].
    destruct (IH _ So (ex_intro _ bt (conj Ft eq_refl))) as [H1 H2]. destruct t; cbn [filter].
    + rewrite zlen_cons. set (m := zlen (filter (fun b : bool => b) bt)) in *. assert (0 <= m) by apply zlen_nonneg. split.
      * intros i x Hi Ei. destruct (Z.eq_dec i 0) as [->|]; [rewrite Znth_0 in Ei; injection Ei as <-; now apply Hab|].
        rewrite Znth_cons in Ei by lia. apply (H1 (i - 1)); [lia|exact Ei].
      * intros x Ex. rewrite Znth_cons in Ex by lia. rewrite Z.add_simpl_r in Ex. auto.
    + assert (A : (s < a)%Qc). { apply Qcnot_le_lt. intros Q. apply Hab in Q. discriminate. }
      assert (Z0 : filter (fun b : bool => b) bt = []).
      { clear - Ft Fa A. induction Ft as [|x b l bt Hx F IH]; [reflexivity|]. inversion Fa; subst. cbn. destruct b; [|auto].
        exfalso. apply (Qclt_not_le _ _ A). apply Qcle_trans with x; [assumption|]. now apply Hx. }
      rewrite Z0. change (zlen (@nil bool)) with 0. split; [intros; lia|]. intros x Ex. rewrite Znth_0 in Ex. now injection Ex as <-.
Qed.
Lemma sorted_of_nth (l : list Qc) : (forall i j x y, 0 <= i <= j -> Znth l i = Some x -> Znth l j = Some y -> (x <= y)%Qc) -> StronglySorted Qcle l.
Proof.
  induction l as [|a l IH]; intros H; constructor.
  - apply IH. intros i j x y Hi Ei Ej. pose proof (Znth_Some_lt _ _ _ Ei). pose proof (Znth_Some_lt _ _ _ Ej).
    apply (H (i + 1) (j + 1)); [lia| |]; rewrite Znth_cons by lia; now rewrite Z.add_simpl_r.
  - apply Forall_forall. intros y I. apply In_Znth in I. destruct I as [j [Hj Ej]]. apply (H 0 (j + 1)); [lia|apply Znth_0|].
    rewrite Znth_cons by lia. now rewrite Z.add_simpl_r.
Qed.
(** FirstHistogramGap with single linkage, for at least three samples: let e be the left edge of the first sparse bin.  Unless
    max_fraction intervenes, samples have the same label exactly if a chain of samples leads from one to the
    other in steps of at most e. *)
Theorem histogram_gap_single : forall affinity f b mf st x n D children distances,
  0 <= f -> 1 <= b -> (0 < mf)%Qc -> (mf <= 1)%Qc ->
  check x = Ok n -> 3 <= n -> builder "single" (Some affinity) x = Ok (children, n, distances) ->
  single_linkage n D children distances -> (forall x y, 0 <= x < n -> 0 <= y < n -> D x y = D y x) ->
  exists lo hi k g m labels st',
    spans distances lo hi /\ b <= k /\ sparse f distances lo hi k g /\
    (forall g', 0 <= g' < g -> ~ sparse f distances lo hi k g') /\
    (forall k' g', b <= k' < k -> ~ sparse f distances lo hi k' g') /\
    count_of (fun x => (x <= edge_at lo hi k g)%Qc) distances m /\
    fit_histogram push pushpop X check builder "single" affinity f b mf st x = (st', Ok tt) /\ labels_ st' = Some labels /\
    ((qz (n - m) <= mf * qz n)%Qc -> n_clusters_ st' = Some (n - m) /\ numbers n (n - m) (chain n D (edge_at lo hi k g)) labels).
Proof.
  intros affinity f b mf st x n D children distances H1 H2 H3 H4 C Hn B SL Sy. pose proof SL as [T [L SLd]].
  destruct (histogram_gap_fit "single" affinity f b mf st x n children distances H1 H2 H3 H4) as [lo [hi [k [g [m [c [labels [E [N [S1 [S2 [S3 [S4 [S5 [S6 S7]]]]]]]]]]]]]]]; try assumption.
  { right. auto. }
  exists lo, hi, k, g, m, labels. eexists. repeat (split; [eassumption|]). cbn [labels_ n_clusters_]. split; [reflexivity|].
  intros Cap. assert (c = n - m) as -> by (destruct S7 as [[_ ->]|[Cp _]]; [reflexivity|exfalso; apply (Qclt_not_le _ _ Cp Cap)]).
  split; [reflexivity|].
  assert (So : StronglySorted Qcle distances) by (apply sorted_of_nth; intros; eapply (heights_sorted n D children distances SL Sy); eauto).
  destruct (count_sorted _ _ _ So S6) as [Lo Hi].
  assert (Rm : 0 <= m <= n - 1).
  { destruct S6 as [bs [F ->]]. split; [apply zlen_nonneg|]. rewrite <- L, (Forall2_zlen _ _ _ F). unfold zlen. apply inj_le.
    clear. induction bs as [|[|] bs IH]; cbn; lia. }
  replace (Z.max 1 (n - m)) with (n - m) in N by lia. replace (n - (n - m)) with m in N by lia.
  revert N. apply numbers_weaken. exact (joined_chain n D children distances SL Sy _ m ltac:(lia) Rm Lo Hi).
Qed.
End Fit.
