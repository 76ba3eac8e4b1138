(** Property C76: uniqueness, corner cases and examples. *)
From Coq Require Import String Sorting.Permutation Sorting.Sorted.
From Verif Require Import Np NpFacts Fl FlFacts KnnThms CoverProofs GapModel GapThms CutModel CutSpec CutThms CutThms2 CutThms3.
Open Scope Z_scope.

(** ** A heap: sorted lists *)
Fixpoint ins (x : Z) (l : list Z) : list Z :=
  match l with [] => [x] | y :: t => if x <=? y then x :: l else y :: ins x t end.
Definition spush (h : list Z) (x : Z) : list Z := ins x h.
Definition spushpop (h : list Z) (x : Z) : list Z := ins x (tl h).
Lemma ins_perm x l : Permutation (ins x l) (x :: l).
Proof. induction l as [|y t IH]; cbn; [reflexivity|]. destruct (x <=? y); [reflexivity|]. rewrite IH. apply perm_swap. Qed.
Lemma ins_sorted x l : StronglySorted Z.le l -> StronglySorted Z.le (ins x l).
Proof.
  induction 1 as [|y t S IH F]; cbn; [constructor; constructor|]. destruct (Z.leb_spec x y).
  - constructor; [now constructor|]. constructor; [assumption|]. eapply Forall_impl; [|exact F]. cbn. intros; lia.
  - constructor; [exact IH|]. apply Forall_forall. intros z I. apply (Permutation_in _ (ins_perm x t)) in I.
    destruct I as [<-|I]; [lia|]. now apply (proj1 (Forall_forall _ _) F).
Qed.
Theorem sorted_heapq : heapq spush spushpop.
Proof.
  exists (StronglySorted Z.le). split; [intros; constructor; constructor|]. split.
  - intros x h y S I. apply StronglySorted_inv in S. now apply (proj1 (Forall_forall _ _) (proj2 S)).
  - split.
    + intros h x S. split; [now apply ins_sorted|apply ins_perm].
    + intros y h x S _. apply StronglySorted_inv in S. split; [now apply ins_sorted|apply ins_perm].
Qed.

(** ** The heights of a single linkage dendrogram depend on the distances only *)
Lemma nodup_map_in {A B} (f : A -> B) l : (forall a b, In a l -> In b l -> f a = f b -> a = b) -> NoDup l -> NoDup (map f l).
Proof.
  intros H N. induction N as [|a l Na N IH]; [constructor|]. cbn. constructor.
  - intros I. apply in_map_iff in I. destruct I as [b [Q I]]. apply Na. rewrite <- (H b a); [exact I|now right|now left|exact Q].
  - apply IH. intros; apply H; auto; now right.
Qed.
Lemma numbers_le n k k' R l l' : numbers n k R l -> numbers n k' R l' -> 0 <= k' -> k <= k'.
Proof.
  intros [L [I N]] [L' [I' N']] K'. destruct (Z_le_gt_dec k 0); [lia|].
  set (pick := fun a => match find (fun x => match Znth l x with Some b => b =? a | None => false end) (arange n) with
                          | Some x => match Znth l' x with Some b => b | None => 0 end | None => 0 end).
    assert (P : forall a, 0 <= a < k -> exists x, Znth l x = Some a /\ Znth l' x = Some (pick a)).
    { intros a Ha. apply I, In_Znth in Ha. destruct Ha as [x [Rx Ex]]. unfold pick.
      destruct (find _ (arange n)) as [x'|] eqn:F.
      - apply find_some in F. destruct F as [F1 F2]. apply In_arange in F1. exists x'. destruct (Znth l x') as [b|]; [|discriminate].
        apply Z.eqb_eq in F2. subst b. split; [reflexivity|]. destruct (Znth_ex l' x') as [w ->]; [lia|reflexivity].
      - exfalso. assert (In x (arange n)) as J by (apply In_arange; lia). pose proof (find_none _ _ F x J) as Q. cbn in Q. rewrite Ex in Q.
        now rewrite Z.eqb_refl in Q. }
    assert (Nd : NoDup (tabZ k pick)).
    { unfold tabZ. apply nodup_map_in; [|apply seq_NoDup]. intros i j Hi Hj Q. apply in_seq in Hi. apply in_seq in Hj.
      destruct (P (Z.of_nat i)) as [x [Ex Ex']]; [lia|]. destruct (P (Z.of_nat j)) as [y [Ey Ey']]; [lia|].
      rewrite Q in Ex'. pose proof (proj1 (N' _ _ _ _ Ex' Ey') eq_refl) as Rxy. apply (N _ _ _ _ Ex Ey) in Rxy. lia. }
    assert (Inc : incl (tabZ k pick) (arange k')).
    { intros b Ib. unfold tabZ in Ib. apply in_map_iff in Ib. destruct Ib as [i [<- Hi]]. apply in_seq in Hi.
      destruct (P (Z.of_nat i)) as [x [_ Ex']]; [lia|]. apply In_arange. apply I'. eapply Znth_In; eauto. }
    pose proof (zlen_incl _ _ Nd Inc) as Q. rewrite zlen_tabZ in Q by lia. rewrite zlen_arange in Q by lia. exact Q.
Qed.
Lemma heights_count n D children distances s : 2 <= n -> single_linkage n D children distances -> (forall x y, 0 <= x < n -> 0 <= y < n -> D x y = D y x) ->
  exists m labels, m <= n /\ (forall i d, Znth distances i = Some d -> ((d <= s)%Qc <-> i < m)) /\ numbers n (n - m) (chain n D s) labels.
Proof.
  intros Hn SL Sy. pose proof SL as [T [L _]].
  assert (So : StronglySorted Qcle distances) by (apply sorted_of_nth; intros; eapply (heights_sorted n D children distances SL Sy); eauto).
  set (m := zlen (filter (fun x => Qcleb x s) distances)).
  assert (Cn : count_of (fun x => (x <= s)%Qc) distances m) by (apply count_filter; intros; apply Qcleb_le).
  destruct (count_sorted _ _ _ So Cn) as [Lo Hi].
  assert (Rm : 0 <= m <= n - 1).
  { split; [apply zlen_nonneg|]. rewrite <- L. unfold m, zlen. apply inj_le. generalize (fun x => Qcleb x s). intros f. clear. induction distances as [|a t IH]; cbn; [lia|]. destruct (f a); cbn; lia. }
  destruct (hc_cut_ok spush spushpop sorted_heapq n children T (n - m) Hn ltac:(lia)) as [labels [_ N]].
  exists m, labels. split; [lia|]. split.
  - intros i d E. pose proof (Znth_Some_lt _ _ _ E) as Ri. split.
    + intros Q. destruct (Z_lt_le_dec i m); [assumption|]. exfalso. destruct (Znth_ex distances m) as [dm Em]; [lia|].
      specialize (Hi _ Em). pose proof (heights_sorted n D children distances SL Sy m i dm d ltac:(lia) Em E). qlra.
    + intros Q. apply (Lo i); [lia|exact E].
  - replace (n - (n - m)) with m in N by lia. revert N. apply numbers_weaken. exact (joined_chain n D children distances SL Sy s m Hn Rm Lo Hi).
Qed.
Theorem single_linkage_heights : forall n D children distances children' distances',
  single_linkage n D children distances -> single_linkage n D children' distances' ->
  (forall x y, 0 <= x < n -> 0 <= y < n -> D x y = D y x) -> distances = distances'.
Proof.
  intros n D children distances children' distances' SL SL' Sy.
  pose proof SL as [_ [L _]]. pose proof SL' as [_ [L' _]].
  assert (H : forall i d d', Znth distances i = Some d -> Znth distances' i = Some d' -> d = d').
  { intros i d d' E E'. pose proof (Znth_Some_lt _ _ _ E) as Ri. assert (Hn : 2 <= n) by lia.
    assert (M : forall s, exists m, (forall i d, Znth distances i = Some d -> ((d <= s)%Qc <-> i < m)) /\ (forall i d, Znth distances' i = Some d -> ((d <= s)%Qc <-> i < m))).
    { intros s. destruct (heights_count n D children distances s Hn SL Sy) as [m [l [Q1 [H1 N1]]]].
      destruct (heights_count n D children' distances' s Hn SL' Sy) as [m' [l' [Q2 [H2 N2]]]].
      pose proof (numbers_le _ _ _ _ _ _ N1 N2 ltac:(lia)). pose proof (numbers_le _ _ _ _ _ _ N2 N1 ltac:(lia)). assert (m' = m) by lia. subst m'. eauto. }
    apply Qcle_antisym.
    - destruct (M d') as [m [M1 M2]]. apply (M1 _ _ E). apply (M2 _ _ E'). apply Qcle_refl.
    - destruct (M d) as [m [M1 M2]]. apply (M2 _ _ E'). apply (M1 _ _ E). apply Qcle_refl. }
  apply Znth_ext; [lia|]. intros i Hi. destruct (Znth_ex distances i) as [d E]; [lia|]. destruct (Znth_ex distances' i) as [d' E']; [lia|].
  rewrite E, E'. f_equal. eauto.
Qed.
(** With max_fraction = 1, the default, the clusters of FirstSimpleGap with single linkage are determined by the
    distances of the samples, however ties are broken in building the tree. *)
Theorem simple_gap_single_unique : forall push pushpop push' pushpop' X check builder builder' affinity r st st' x n D children children' distances distances' d,
  heapq push pushpop -> heapq push' pushpop' -> (0 < r)%Qc -> (r <= 1)%Qc ->
  check x = Ok n -> 2 <= n ->
  builder "single"%string (Some affinity) x = Ok (children, n, distances) -> single_linkage n D children distances ->
  builder' "single"%string (Some affinity) x = Ok (children', n, distances') -> single_linkage n D children' distances' ->
  (forall x y, 0 <= x < n -> 0 <= y < n -> D x y = D y x) -> Znth distances (n - 2) = Some d -> (0 < d)%Qc ->
  exists st1 st1' labels labels',
    fit_simple push pushpop X check builder "single" affinity r 1 st x = (st1, Ok tt) /\ labels_ st1 = Some labels /\
    fit_simple push' pushpop' X check builder' "single" affinity r 1 st' x = (st1', Ok tt) /\ labels_ st1' = Some labels' /\
    n_clusters_ st1 = n_clusters_ st1' /\
    forall p q lp lq lp' lq', Znth labels p = Some lp -> Znth labels q = Some lq -> Znth labels' p = Some lp' -> Znth labels' q = Some lq' -> (lp = lq <-> lp' = lq').
Proof.
  intros push pushpop push' pushpop' X check builder builder' affinity r st st' x n D children children' distances distances' d Hq Hq' H1 H2 C Hn B SL B' SL' Sy Ed Pd.
  assert (distances' = distances) as -> by (symmetry; eapply single_linkage_heights; eauto). pose proof SL as [_ [L _]].
  assert (One : (0 < 1)%Qc) by reflexivity. assert (One' : (1 <= 1)%Qc) by apply Qcle_refl.
  destruct (first_simple_gap_spec r 1 n distances d H1 H2 One One' Hn L Ed) as [c [_ S]].
  destruct (simple_gap_single push pushpop Hq X check builder affinity r 1 st x n D children distances d) as [labels [st1 [E [El [Ga Gb]]]]]; try assumption.
  destruct (simple_gap_single push' pushpop' Hq' X check builder' affinity r 1 st' x n D children' distances d) as [labels' [st1' [E' [El' [Ga' Gb']]]]]; try assumption.
  exists st1, st1', labels, labels'. split; [exact E|]. split; [exact El|]. split; [exact E'|]. split; [exact El'|].
  assert (Fin : exists k R, n_clusters_ st1 = Some k /\ n_clusters_ st1' = Some k /\ numbers n k R labels /\ numbers n k R labels').
  { destruct S as [[g [j [J [Q [F _]]]]]|[S _]].
    - pose proof J as [h [Eh _]]. pose proof (Znth_Some_lt _ _ _ Eh) as Rg.
      assert (Cp : (qz (n - g) <= 1 * qz n)%Qc) by (rewrite Qcmult_1_l; apply qz_le; lia).
      destruct (Ga g j h Eh J Q F Cp) as [K [N _]]. destruct (Ga' g j h Eh J Q F Cp) as [K' [N' _]]. eauto 10.
    - destruct (Gb S) as [K N]. destruct (Gb' S) as [K' N']. eauto 10. }
  destruct Fin as [k [R [K [K' [N N']]]]]. split; [congruence|].
  intros p q lp lq lp' lq' Ep Eq Ep' Eq'. destruct N as [_ [_ N]]. destruct N' as [_ [_ N']]. now rewrite (N _ _ _ _ Ep Eq), (N' _ _ _ _ Ep' Eq').
Qed.
(** Identical samples, although at distance 0, all get different labels. *)
Theorem simple_gap_identical : forall push pushpop X check builder affinity r st x n D children distances,
  heapq push pushpop -> (0 < r)%Qc -> (r <= 1)%Qc -> check x = Ok n -> 2 <= n ->
  builder "single"%string (Some affinity) x = Ok (children, n, distances) -> single_linkage n D children distances ->
  (forall x y, 0 <= x < n -> 0 <= y < n -> D x y = 0%Qc) ->
  exists labels, fit_simple push pushpop X check builder "single" affinity r 1 st x =
    (Attrs (Some labels) (Some n) (Some children) (Some n) (Some distances), Ok tt) /\ numbers n n eq labels.
Proof.
  intros push pushpop X check builder affinity r st x n D children distances Hq H1 H2 C Hn B SL Z0. pose proof SL as [T [L _]].
  assert (Sy : forall x y, 0 <= x < n -> 0 <= y < n -> D x y = D y x) by (intros; now rewrite !Z0).
  assert (Al : forall y, In y distances -> y = 0%Qc).
  { intros y I. apply In_Znth in I. destruct I as [i [Ri Ei]]. destruct (SL_distance n D children distances SL Sy i) as [a [b [d [E [Ed [[p [q [Bp [Bq <-]]]] _]]]]]]; [lia|].
    rewrite Ei in Ed. injection Ed as ->. apply (below_range n children T) in Bp. apply (below_range n children T) in Bq. now apply Z0. }
  assert (One : (0 < 1)%Qc) by reflexivity. assert (One' : (1 <= 1)%Qc) by apply Qcle_refl.
  destruct (fit_gap_ok push pushpop Hq X check builder (in_unit r && in_unit 1) (fun distances => do d <- py_get distances (-1); num_clusters_simple distances (r * d)%Qc (Some 1%Qc))
              "single" affinity st x n children distances n C Hn) as [labels [E N]]; try assumption.
  - now rewrite !in_unit_true.
  - right. auto.
  - rewrite (simple_count r 1 n); try assumption; [|lia]. now apply first_simple_gap_identical.
  - lia.
  - exists labels. split; [exact E|]. replace (Z.max 1 n) with n in N by lia. replace (n - n) with 0 in N by lia.
    revert N. apply numbers_weaken. intros p q Hp Hq'. split.
    + intros [v [Hv [Bp Bq]]]. apply (below_small n children T) in Bp; [|lia]. apply (below_small n children T) in Bq; [|lia]. congruence.
    + intros ->. now apply joined_refl; [lia|].
Qed.

(** ** Examples *)
Definition ex_pos (x : Z) : Qc := qz (if x =? 0 then 0 else if x =? 1 then 1 else if x =? 2 then 10 else 11).
Definition ex_D (x y : Z) : Qc := if Qcleb (ex_pos x) (ex_pos y) then (ex_pos y - ex_pos x)%Qc else (ex_pos x - ex_pos y)%Qc.
Definition ex_children : list (Z * Z) := [(0, 1); (2, 3); (4, 5)].
Definition ex_distances : list Qc := [qz 1; qz 1; qz 9].
Lemma four x : 0 <= x < 4 -> x = 0 \/ x = 1 \/ x = 2 \/ x = 3. Proof. lia. Qed.
Lemma ex_tree : merge_tree 4 ex_children.
Proof.
  split; [reflexivity|]. split.
  - intros i a b E. pose proof (Znth_Some_lt _ _ _ E) as R. change (zlen ex_children) with 3 in R.
    assert (i = 0 \/ i = 1 \/ i = 2) as [-> | [-> | ->]] by lia; injection E as <- <-; lia.
  - cbn. repeat constructor; cbn; intuition congruence.
Qed.
Lemma ex_below4 : below 4 ex_children 4 0 /\ below 4 ex_children 4 1.
Proof. split; [apply (below_left 4 _ 0 0 1)|apply (below_right 4 _ 0 0 1)]; try reflexivity; constructor; lia. Qed.
Lemma ex_below5 : below 4 ex_children 5 2 /\ below 4 ex_children 5 3.
Proof. split; [apply (below_left 4 _ 1 2 3)|apply (below_right 4 _ 1 2 3)]; try reflexivity; constructor; lia. Qed.
(** Four points on a line: 0, 1, 10 and 11. *)
Example ex_single : single_linkage 4 ex_D ex_children ex_distances.
Proof.
  split; [exact ex_tree|]. split; [reflexivity|]. intros i a b d E Ed. destruct ex_below4 as [B0 B1]. destruct ex_below5 as [B2 B3].
  assert (S : forall x, 0 <= x < 4 -> below 4 ex_children x x) by (intros; now constructor).
  pose proof (Znth_Some_lt _ _ _ E) as R. change (zlen ex_children) with 3 in R.
  assert (i = 0 \/ i = 1 \/ i = 2) as [-> | [-> | ->]] by lia; injection E as <- <-; injection Ed as <-; (split; [|intros x y Hx Hy NJ]).
  - exists 0, 1. split; [apply S; lia|]. split; [apply S; lia|]. vm_compute. reflexivity.
  - destruct (four x Hx) as [-> | [-> | [-> | ->]]]; destruct (four y Hy) as [-> | [-> | [-> | ->]]]; try (vm_compute; discriminate);
      exfalso; apply NJ; eexists; (split; [|split; apply S; lia]); lia.
  - exists 2, 3. split; [apply S; lia|]. split; [apply S; lia|]. vm_compute. reflexivity.
  - destruct (four x Hx) as [-> | [-> | [-> | ->]]]; destruct (four y Hy) as [-> | [-> | [-> | ->]]]; try (vm_compute; discriminate);
      exfalso; apply NJ; eexists; (split; [|split; apply S; lia]); lia.
  - exists 1, 2. split; [exact B1|]. split; [exact B2|]. vm_compute. reflexivity.
  - destruct (four x Hx) as [-> | [-> | [-> | ->]]]; destruct (four y Hy) as [-> | [-> | [-> | ->]]]; try (vm_compute; discriminate);
      exfalso; apply NJ; ((exists 4; split; [lia|split; assumption]) || (exists 5; split; [lia|split; assumption]) || (eexists; (split; [|split; apply S; lia]); lia)).
Qed.
Definition ex_builder (l : string) (a : option string) (x : unit) : res (list (Z * Z) * Z * list Qc) := Ok (ex_children, 4, ex_distances).
Example ex_fit : fit_simple spush spushpop unit (fun _ => Ok 4) ex_builder "single" "euclidean" (Q2Qc (3 # 10)) 1 no_attrs tt =
  (Attrs (Some [1; 1; 0; 0]) (Some 2) (Some ex_children) (Some 4) (Some ex_distances), Ok tt).
Proof. vm_compute. reflexivity. Qed.

(** ** What does not hold *)
(** A single sample leaves children_, n_leaves_ and distances_ of an earlier fit in place. *)
Theorem single_sample_stale_refuted : exists (X : Type) check builder linkage affinity r mf (x y : X) st st',
  check x = Ok 4 /\ check y = Ok 1 /\
  fit_simple spush spushpop X check builder linkage affinity r mf no_attrs x = (st, Ok tt) /\
  fit_simple spush spushpop X check builder linkage affinity r mf st y = (st', Ok tt) /\
  labels_ st' = Some [0] /\ children_ st' = Some [(0, 1); (2, 3); (4, 5)] /\ n_leaves_ st' = Some 4 /\
  exists st'', fit_simple spush spushpop X check builder linkage affinity r mf no_attrs y = (st'', Ok tt) /\ labels_ st'' = Some [0] /\ children_ st'' = None /\ n_leaves_ st'' = None /\ distances_ st'' = None.
Proof.
  exists bool, (fun b : bool => Ok (if b then 4 else 1)), (fun (_ : string) (_ : option string) (_ : bool) => Ok (ex_children, 4, ex_distances)), "single"%string, "euclidean"%string, (Q2Qc (3 # 10)), 1%Qc, true, false.
  eexists. eexists. split; [reflexivity|]. split; [reflexivity|]. split; [vm_compute; reflexivity|]. split; [vm_compute; reflexivity|].
  split; [reflexivity|]. split; [reflexivity|]. split; [reflexivity|]. eexists. split; [vm_compute; reflexivity|]. repeat split.
Qed.
Definition tie_tree (b : bool) : list (Z * Z) := if b then [(0, 1); (2, 3)] else [(1, 2); (0, 3)].
Lemma tie_single b : single_linkage 3 (fun x y => if x =? y then 0%Qc else 1%Qc) (tie_tree b) [1%Qc; 1%Qc].
Proof.
  assert (S : forall c x, 0 <= x < 3 -> below 3 c x x) by (intros; now constructor).
  split; [|split; [reflexivity|]].
  - split; [now destruct b|]. split.
    + intros i p q E. pose proof (Znth_Some_lt _ _ _ E) as R. replace (zlen (tie_tree b)) with 2 in R by now destruct b.
      assert (i = 0 \/ i = 1) as [-> | ->] by lia; destruct b; injection E as <- <-; lia.
    + destruct b; cbn; repeat constructor; cbn; intuition congruence.
  - intros i p q d E Ed. pose proof (Znth_Some_lt _ _ _ E) as R. replace (zlen (tie_tree b)) with 2 in R by now destruct b.
    assert (d = 1%Qc) as ->. { assert (i = 0 \/ i = 1) as [-> | ->] by lia; now injection Ed as <-. }
    split.
    + assert (i = 0 \/ i = 1) as [-> | ->] by lia; destruct b; injection E as <- <-.
      * exists 0, 1. split; [apply S; lia|]. split; [apply S; lia|]. reflexivity.
      * exists 1, 2. split; [apply S; lia|]. split; [apply S; lia|]. reflexivity.
      * exists 2, 0. split; [apply S; lia|]. split; [|reflexivity]. apply (below_left 3 _ 0 0 1); [reflexivity|apply S; lia].
      * exists 0, 1. split; [apply S; lia|]. split; [|reflexivity]. apply (below_left 3 _ 0 1 2); [reflexivity|apply S; lia].
    + intros x y Hx Hy NJ. destruct (Z.eqb_spec x y) as [->|]; [|apply Qcle_refl]. exfalso. apply NJ. exists y. split; [lia|]. split; apply S; lia.
Qed.
(** If max_fraction intervenes the clusters may depend on how ties are broken: three samples at equal
    distances, max_fraction = 2/3. *)
Theorem simple_gap_ties_refuted : exists r mf D children children' distances labels labels' st st',
  single_linkage 3 D children distances /\ single_linkage 3 D children' distances /\
  (forall x y, D x y = D y x) /\
  fit_simple spush spushpop unit (fun _ => Ok 3) (fun _ _ _ => Ok (children, 3, distances)) "single" "euclidean" r mf no_attrs tt = (st, Ok tt) /\
  fit_simple spush spushpop unit (fun _ => Ok 3) (fun _ _ _ => Ok (children', 3, distances)) "single" "euclidean" r mf no_attrs tt = (st', Ok tt) /\
  labels_ st = Some labels /\ labels_ st' = Some labels' /\
  Znth labels 0 = Znth labels 1 /\ Znth labels' 0 <> Znth labels' 1.
Proof.
  exists (Q2Qc (3 # 10)), (Q2Qc (2 # 3)), (fun x y => if x =? y then 0%Qc else 1%Qc), (tie_tree true), (tie_tree false), [1%Qc; 1%Qc].
  do 4 eexists. split; [apply tie_single|]. split; [apply tie_single|]. split; [intros; now rewrite Z.eqb_sym|].
  split; [vm_compute; reflexivity|]. split; [vm_compute; reflexivity|]. split; [reflexivity|]. split; [reflexivity|].
  split; [reflexivity|]. vm_compute. discriminate.
Qed.
(** n_clusters_ may be 0, although labels_ has one label. *)
Theorem zero_clusters_refuted : exists r mf children (distances : list Qc) st,
  merge_tree 3 children /\
  fit_simple spush spushpop unit (fun _ => Ok 3) (fun _ _ _ => Ok (children, 3, distances)) "single" "euclidean" r mf no_attrs tt = (st, Ok tt) /\
  labels_ st = Some [0; 0; 0] /\ n_clusters_ st = Some 0.
Proof.
  exists (Q2Qc (3 # 10)), (Q2Qc (1 # 10)), (tie_tree true), [1%Qc; 1%Qc]. eexists.
  split; [apply (tie_single true)|]. split; [vm_compute; reflexivity|]. split; reflexivity.
Qed.

Print Assumptions hc_cut_spec.
Print Assumptions hc_cut_nested.
Print Assumptions simple_gap_fit.
Print Assumptions histogram_gap_fit.
Print Assumptions histogram_gap_fit_two.
Print Assumptions gap_fit_refuses.
Print Assumptions gap_fit_predict.
Print Assumptions simple_gap_single.
Print Assumptions histogram_gap_single.
Print Assumptions single_linkage_heights.
Print Assumptions simple_gap_single_unique.
Print Assumptions simple_gap_identical.
Print Assumptions single_sample_stale_refuted.
Print Assumptions simple_gap_ties_refuted.
Print Assumptions zero_clusters_refuted.
