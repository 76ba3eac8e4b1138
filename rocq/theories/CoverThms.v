(** Properties C40-C43: covers of filter values (gtda/mapper/cover.py). *)
From Coq Require Import Permutation Sorted.
From Verif Require Import Np NpFacts Fl FlFacts DiagModel VecModel CoverModel CoverSpec CoverProofs CoverProofs2 CoverProofs3 CoverProofs4.
Open Scope Z_scope.

(** ** Vocabulary *)
(** Accepted hyperparameters. *)
Definition valid_cover (p : cover_params) : Prop :=
  1 <= n_intervals p /\ (0 < overlap_frac p /\ overlap_frac p < 1)%Qc.
(** X is a non-empty array of shape (n_samples,) or (n_samples, 1) with values xs. *)
Definition column_of (X : ndata) (xs : list Qc) : Prop :=
  xs <> [] /\ (X = D1 xs \/ X = D2 1 (map (fun x => [x]) xs)).
(** X is a non-empty array with c >= 1 columns and the given rows. *)
Definition matrix_of (X : ndata) (c : Z) (rows : list (list Qc)) : Prop :=
  rows <> [] /\ 1 <= c /\ Forall (fun r => zlen r = c) rows /\
  (X = D2 c rows \/ exists xs, X = D1 xs /\ c = 1 /\ rows = map (fun x => [x]) xs).
(** xs is column j of the rows. *)
Definition coordinate (rows : list (list Qc)) (j : Z) (xs : list Qc) : Prop :=
  Forall2 (fun r x => Znth r j = Some x) rows xs.
(** All values are equal. *)
Definition one_value (xs : list Qc) : Prop := forall x y, In x xs -> In y xs -> x = y.

Lemma concat_singletons (xs : list Qc) : concat (map (fun x => [x]) xs) = xs.
Proof. induction xs; cbn; [reflexivity|]. now f_equal. Qed.
Lemma column_of_one X xs : column_of X xs -> check_array_ X = Ok X /\ one_column X = Ok xs.
Proof.
  intros [N [->| ->]].
  - destruct xs; [easy|]. split; reflexivity.
  - split; [now destruct xs|]. cbn. now rewrite concat_singletons.
Qed.
Lemma cover_fit_column p X xs : valid_cover p -> column_of X xs ->
  cover_fit p X = (do lims <- fitter p xs; Ok (Some lims)).
Proof.
  intros [Hn Hov] HX. destruct (column_of_one X xs HX) as [E1 E2]. unfold cover_fit.
  rewrite E1. cbn [bind]. rewrite validate_valid by assumption. cbn [bind]. rewrite E2. reflexivity.
Qed.
Lemma dec_const (b : bool) (P : Prop) : (b = true <-> P) -> ~ P -> b = false.
Proof. destruct b; intuition. Qed.

(** ** C40: the uniform cover *)
Theorem uniform_cover_spec : forall p X xs lo hi,
  kind p = Uniform -> valid_cover p -> column_of X xs -> least lo xs -> largest hi xs ->
  (lo = hi -> 1 < n_intervals p -> cover_fit p X = Err ValueError) /\
  (~ (lo = hi /\ 1 < n_intervals p) ->
   exists st I,
     cover_fit p X = Ok st /\ get_fitted_intervals st = Ok I /\
     uniform_cover lo hi (n_intervals p) (overlap_frac p) I /\
     (forall x : Qc, exists i, In i I /\ inside i x)).
Proof.
  intros p X xs lo hi K V HX Hlo Hhi. pose proof HX as [NE _]. pose proof V as [Hn Hov].
  rewrite (cover_fit_column p X xs V HX).
  destruct (fitter_ok p Hn Hov xs NE) as [lims [-> L]]. unfold limits_for in L. rewrite K in L.
  pose proof (too_few_spec p xs NE) as T. pose proof (min_max_constant xs lo hi Hlo Hhi) as M.
  split.
  - intros E Hn1. rewrite (proj2 T); [reflexivity|]. split; [|assumption]. now apply M.
  - intros NC. rewrite (dec_const _ _ T) in * by (intros [C C']; apply NC; split; [now apply M|assumption]).
    destruct (L eq_refl) as [U C]. exists (Some lims), (combine (fst lims) (snd lims)).
    split; [reflexivity|]. split; [now destruct lims|]. split; [now apply U|exact C].
Qed.
(** Rejected inputs. *)
Theorem cover_rejects : forall p X,
  (X = D1 [] \/ (exists c, X = D2 c []) \/ (exists c rows, X = D2 c rows /\ c <> 1) \/
   n_intervals p < 1 \/ (overlap_frac p <= 0)%Qc \/ (1 <= overlap_frac p)%Qc) ->
  cover_fit p X = Err ValueError /\ forall st, cover_fit_transform p st X = Err ValueError.
Proof.
  intros p X H.
  assert (V : validate_cover p = Err ValueError \/
              (validate_cover p = Ok tt /\ ~ (n_intervals p < 1 \/ (overlap_frac p <= 0)%Qc \/ (1 <= overlap_frac p)%Qc))).
  { unfold validate_cover. destruct (Z.ltb_spec (n_intervals p) 1); cbn; [now left|].
    destruct (Qcleb_spec (overlap_frac p) 0); cbn; [now left|].
    destruct (Qcleb_spec 1 (overlap_frac p)); cbn; [now left|]. right. split; [reflexivity|].
    intros [|[|]]; [lia|contradiction|contradiction]. }
  assert (G : (do X1 <- check_array_ X; do _ <- validate_cover p; one_column X1) = Err ValueError).
  { destruct (check_array_ X) as [X1|e] eqn:E.
    - cbn [bind]. destruct V as [->|[-> V]]; [reflexivity|]. cbn [bind].
      destruct H as [->|[[c ->]|[[c [rows [-> Hc]]]|H]]]; [discriminate|discriminate| |tauto].
      cbn in E. destruct rows; [discriminate|]. destruct (Z.ltb_spec c 1); [discriminate|]. injection E as <-.
      cbn. now replace (1 <? c) with true by lia.
    - cbn [bind]. destruct X as [[|]|c [|]]; cbn in E; try congruence. destruct (c <? 1); congruence. }
  unfold cover_fit, cover_fit_transform.
  destruct (check_array_ X) as [X1|]; cbn [bind] in *; [|injection G as ->; split; [|intros]; reflexivity].
  destruct (validate_cover p); cbn [bind] in *; [|injection G as ->; split; [|intros]; reflexivity].
  destruct (one_column X1); cbn [bind] in *; [discriminate|]. injection G as ->; split; [|intros]; reflexivity.
Qed.
Definition ex_cover : cover_params := CParams Uniform 3 (Q2Qc (1 # 4)).
Definition ex_col : list Qc := [Q2Qc 1; Q2Qc (7 # 2); Q2Qc 6; Q2Qc 1].
Example uniform_hyps : kind ex_cover = Uniform /\ valid_cover ex_cover /\ column_of (D1 ex_col) ex_col /\
  least (Q2Qc 1) ex_col /\ largest (Q2Qc 6) ex_col /\ ~ (Q2Qc 1 = Q2Qc 6 /\ 1 < n_intervals ex_cover).
Proof.
  split; [reflexivity|]. split; [split; [cbn; lia|split; reflexivity]|]. split; [split; [discriminate|now left]|].
  split; [|split]. 
  - split; [now left|]. intros x [<-|[<-|[<-|[<-|[]]]]]; vm_compute; discriminate.
  - split; [right; right; now left|]. intros x [<-|[<-|[<-|[<-|[]]]]]; vm_compute; discriminate.
  - intros [E _]. apply Qceqb_eq in E. vm_compute in E. discriminate.
Qed.
Example uniform_ex :
  (do st <- cover_fit ex_cover (D1 ex_col); get_fitted_intervals st) =
  Ok [(NInf, Fin (Q2Qc 3)); (Fin (Q2Qc (5 # 2)), Fin (Q2Qc (9 # 2))); (Fin (Q2Qc 4), PInf)].
Proof. vm_compute. reflexivity. Qed.
Print Assumptions uniform_cover_spec.
Print Assumptions cover_rejects.

(** ** C41: masks *)
Theorem cover_masks_spec : forall p X xs st I Y ys,
  valid_cover p -> column_of X xs -> cover_fit p X = Ok st -> get_fitted_intervals st = Ok I ->
  column_of Y ys ->
  exists cols, cover_transform p st Y = Ok cols /\
    masks_of (map inside I) ys cols /\
    forall s, 0 <= s < zlen ys -> in_some_column cols s.
Proof.
  intros p X xs st I Y ys V HX Hf HI HY. pose proof HX as [NE _]. pose proof V as [Hn Hov].
  rewrite (cover_fit_column p X xs V HX) in Hf.
  destruct (fitter_ok p Hn Hov xs NE) as [lims [E L]]. rewrite E in Hf.
  destruct (too_few p xs); [discriminate|]. cbn in Hf. injection Hf as <-.
  destruct (L eq_refl) as [_ C]. assert (I = combine (fst lims) (snd lims)) as ->.
  { destruct lims. cbn in HI. now injection HI as <-. }
  destruct (column_of_one Y ys HY) as [E1 E2]. unfold cover_transform. rewrite E1. cbn [bind]. rewrite E2. cbn [bind].
  eexists. split; [reflexivity|]. split; [apply masks_of_remove|]. intros s Hs.
  destruct (Znth_ex ys s Hs) as [y Ey].
  eapply masks_cover; [apply masks_of_remove|exact Ey|]. destruct (C y) as [i [Hi Hy]].
  exists (inside i). split; [now apply in_map|assumption].
Qed.
Theorem cover_transform_unfitted : forall p Y,
  cover_transform p None Y = Err NotFittedError /\ get_fitted_intervals None = Err NotFittedError.
Proof. now split. Qed.
Example masks_ex : (do st <- cover_fit ex_cover (D1 ex_col); cover_transform ex_cover st (D1 [Q2Qc 0; Q2Qc 5; Q2Qc 1; Q2Qc (9 # 2)])) =
  Ok [[true; false; true; false]; [false; true; false; true]].
Proof. reflexivity. Qed.
Print Assumptions cover_masks_spec.

(** ** C42: the balanced cover *)
(** fit_transform is fit followed by transform, also for the exceptions, from any
    previous state of the estimator. *)
Theorem cover_fit_transform_same : forall p st X,
  rmap snd (cover_fit_transform p st X) = (do s <- cover_fit p X; cover_transform p s X).
Proof. apply one_dim_same. Qed.
Theorem balanced_cover_spec : forall p X xs,
  kind p = Balanced -> valid_cover p -> column_of X xs ->
  (one_value xs -> 1 < n_intervals p -> cover_fit p X = Err ValueError) /\
  (~ (one_value xs /\ 1 < n_intervals p) ->
   exists st I,
     cover_fit p X = Ok st /\ get_fitted_intervals st = Ok I /\
     balanced_cover xs (n_intervals p) (overlap_frac p) I /\
     (forall x : Qc, exists i, In i I /\ inside i x)).
Proof.
  intros p X xs K V HX. pose proof HX as [NE _]. pose proof V as [Hn Hov].
  rewrite (cover_fit_column p X xs V HX).
  destruct (fitter_ok p Hn Hov xs NE) as [lims [-> L]]. unfold limits_for in L. rewrite K in L.
  pose proof (too_few_spec p xs NE) as T. split.
  - intros E Hn1. rewrite (proj2 T); [reflexivity|]. split; assumption.
  - intros NC. rewrite (dec_const _ _ T) in * by assumption.
    destruct (L eq_refl) as [U C]. exists (Some lims), (combine (fst lims) (snd lims)).
    split; [reflexivity|]. split; [now destruct lims|]. split; [exact U|exact C].
Qed.
(** The masks of fit_transform describe membership of ranks in an evenly spaced
    cover of (-1/2, m - 1/2), m the number of distinct values. *)
Theorem balanced_fit_transform_spec : forall p X xs st,
  kind p = Balanced -> valid_cover p -> column_of X xs -> ~ (one_value xs /\ 1 < n_intervals p) ->
  exists m D a b cols,
    NoDup D /\ (forall x, In x D <-> In x xs) /\ zlen D = m /\
    evenly_spaced (- Q2Qc (1 # 2)) (qz m - Q2Qc (1 # 2))%Qc (n_intervals p) (overlap_frac p) a b /\
    cover_fit_transform p st X = Ok (st, cols) /\
    masks_of (map (fun i x => exists r, is_rank xs x r /\ (a i < qz r /\ qz r < b i)%Qc)
                  (arange (n_intervals p))) xs cols.
Proof.
  intros p X xs st K V HX NC. pose proof HX as [NE _]. pose proof V as [Hn Hov].
  destruct (column_of_one X xs HX) as [E1 E2].
  exists (distinct xs), (nodup Qc_eq_dec xs), (ba p xs), (bb_ p xs).
  eexists. split; [apply NoDup_nodup|]. split; [intros; apply nodup_In|]. split; [reflexivity|].
  split.
  { replace (qz (distinct xs) - Q2Qc (1 # 2))%Qc with (bhi xs); [apply (aa_bb_spaced _ _ Hn Hov)|].
    unfold bhi. rewrite qz_sub, qz_1, <- qhalf2. unfold qhalf. ring. }
  unfold cover_fit_transform. rewrite E1. cbn [bind]. rewrite validate_valid by assumption. cbn [bind].
  rewrite E2. cbn [bind]. rewrite K. rewrite (fit_transform_balanced_ok p xs Hn NE).
  fold (too_few p xs). rewrite (dec_const _ _ (too_few_spec p xs NE)) by assumption. cbn [bind].
  split; [reflexivity|]. eexists. split; [|apply remove_kept]. rewrite tabZ_arange.
  induction (arange (n_intervals p)) as [|i l IH]; cbn; constructor; [|assumption].
  unfold describes, rank_col. clear IH.
  assert (G : forall ys, Forall2 (fun x b => b = true <-> (exists r, is_rank xs x r /\ (ba p xs i < qz r /\ qz r < bb_ p xs i)%Qc)) ys
    (map (fun x => Qcltb (ba p xs i) (qz (dense_rank xs x)) && Qcltb (qz (dense_rank xs x)) (bb_ p xs i)) ys)); [|apply G].
  induction ys as [|y ys IH]; cbn; constructor; [|assumption].
  rewrite andb_true_iff, !Qcltb_lt. split.
  - intros [? ?]. exists (dense_rank xs y). split; [apply dense_rank_is|auto].
  - intros [r [Hr H]]. now rewrite (is_rank_unique _ _ _ _ (dense_rank_is xs y) Hr).
Qed.
(** Finding: fit_transform does not store limits, so that on a new estimator
    transform still raises, and on a fitted one transform keeps using the limits
    of the earlier fit. *)
Theorem balanced_fit_transform_not_fitted : forall p st X st' cols,
  kind p = Balanced -> cover_fit_transform p st X = Ok (st', cols) -> st' = st.
Proof.
  intros p st X st' cols K H. unfold cover_fit_transform in H. rewrite K in H.
  destruct (check_array_ X) as [X1|]; [|discriminate]. cbn [bind] in H.
  destruct (validate_cover p); [|discriminate]. cbn [bind] in H.
  destruct (one_column X1); [|discriminate]. cbn [bind] in H.
  destruct (fit_transform_balanced p a0); [|discriminate]. cbn [bind] in H. congruence.
Qed.
Theorem uniform_fit_transform_fitted : forall p st X st' cols,
  kind p = Uniform -> cover_fit_transform p st X = Ok (st', cols) -> cover_fit p X = Ok st'.
Proof.
  intros p st X st' cols K H. unfold cover_fit_transform in H. unfold cover_fit. rewrite K in *.
  destruct (check_array_ X) as [X1|]; [|discriminate]. cbn [bind] in *.
  destruct (validate_cover p); [|discriminate]. cbn [bind] in *.
  destruct (one_column X1); [|discriminate]. cbn [bind] in *.
  destruct (fit_uniform p a0); [|discriminate]. cbn [bind] in *. injection H as <- _; reflexivity.
Qed.
(** Finding: the documentation says that the right end of every interval but the
    last is the value ranked as the ceiling of the right end in the space of
    ranks; with many intervals the first right end is negative and the value of
    rank 1 is used although the ceiling is 0. *)
Definition documented_right_end (p : cover_params) (xs : list Qc) : Prop :=
  forall st I a b m,
    cover_fit p (D1 xs) = Ok st -> get_fitted_intervals st = Ok I ->
    NoDup xs -> zlen xs = m ->
    evenly_spaced (- Q2Qc (1 # 2)) (qz m - Q2Qc (1 # 2))%Qc (n_intervals p) (overlap_frac p) a b ->
    forall l v k, Znth I 0 = Some (l, Fin v) -> (qz (k - 1) < b 0%Z /\ b 0%Z <= qz k)%Qc -> has_rank xs v k.
Theorem balanced_right_end_refuted :
  ~ (forall p xs, kind p = Balanced -> valid_cover p -> xs <> [] -> documented_right_end p xs).
Proof.
  intros H. specialize (H (CParams Balanced 5 (Q2Qc (1 # 10))) [Q2Qc 3; Q2Qc 8] eq_refl).
  assert (V : valid_cover (CParams Balanced 5 (Q2Qc (1 # 10)))) by (split; [cbn; lia|split; reflexivity]).
  specialize (H V ltac:(discriminate)).
  unfold documented_right_end in H.
  pose proof V as [Hn Hov].
  pose (lo := (- Q2Qc (1 # 2))%Qc). pose (hi := (qz 2 - Q2Qc (1 # 2))%Qc).
  eassert (E : (do st <- cover_fit (CParams Balanced 5 (Q2Qc (1 # 10))) (D1 [Q2Qc 3; Q2Qc 8]); get_fitted_intervals st) = Ok _)
    by (vm_compute; reflexivity).
  destruct (cover_fit (CParams Balanced 5 (Q2Qc (1 # 10))) (D1 [Q2Qc 3; Q2Qc 8])) as [st|] eqn:E1; [|discriminate].
  cbn [bind] in E.
  specialize (H st _ (aa 5 (Q2Qc (1 # 10)) lo hi) (bb 5 (Q2Qc (1 # 10)) lo hi) 2 eq_refl E).
  assert (ND : NoDup [Q2Qc 3; Q2Qc 8]).
  { constructor; [|constructor; [intros []|constructor]]. intros [F|[]]. apply Qceqb_eq in F. vm_compute in F. discriminate. }
  specialize (H ND eq_refl (aa_bb_spaced _ _ Hn Hov lo hi) _ _ 0 eq_refl).
  destruct H as [_ [l [_ [L HL]]]]; [split; vm_compute; [reflexivity|discriminate]|].
  destruct l; [|vm_compute in L; discriminate L].
  apply (HL (Q2Qc 3)). split; [now left|]. reflexivity.
Qed.
Example balanced_hyps : let p := CParams Balanced 3 (Q2Qc (1 # 4)) in
  kind p = Balanced /\ valid_cover p /\ column_of (D1 ex_col) ex_col /\ ~ (one_value ex_col /\ 1 < n_intervals p).
Proof.
  split; [reflexivity|]. split; [split; [cbn; lia|split; reflexivity]|]. split; [split; [discriminate|now left]|].
  intros [O _]. specialize (O (Q2Qc 1) (Q2Qc 6) ltac:(now left) ltac:(right; right; now left)).
  apply Qceqb_eq in O. vm_compute in O. discriminate.
Qed.
Example balanced_ex : rmap snd (cover_fit_transform (CParams Balanced 2 (Q2Qc (1 # 4))) None (D1 ex_col)) =
  Ok [[true; true; false; true]; [false; true; true; false]].
Proof. reflexivity. Qed.
Print Assumptions cover_fit_transform_same.
Print Assumptions balanced_cover_spec.
Print Assumptions balanced_fit_transform_spec.
Print Assumptions balanced_right_end_refuted.

(** ** C43: CubicalCover *)
Lemma matrix_check X c rows : matrix_of X c rows -> check_array_ X = Ok X /\ as_rows X = (c, rows).
Proof.
  intros [N [Hc [_ [->|[xs [-> [-> ->]]]]]]].
  - cbn. destruct rows; [easy|]. replace (c <? 1) with false by lia. split; reflexivity.
  - destruct xs; [easy|]. split; reflexivity.
Qed.
Lemma coordinate_column rows c j : Forall (fun r => zlen r = c) rows -> 0 <= j < c ->
  coordinate rows j (column rows j).
Proof.
  intros F Hj. unfold coordinate, column. induction F as [|r rows Hr F IH]; cbn; constructor; [|assumption].
  destruct (Znth_ex r j ltac:(lia)) as [x E]. now rewrite E.
Qed.
Lemma coordinate_unique rows j xs ys : coordinate rows j xs -> coordinate rows j ys -> xs = ys.
Proof.
  intros H. revert ys; induction H; intros ys G; inversion G; subst; [reflexivity|].
  f_equal; [congruence|auto].
Qed.
Lemma cubical_fit_ok p X c rows : valid_cover p -> matrix_of X c rows ->
  exists g, cubical_fit p X =
    (if existsb (fun i => too_few p (column rows i)) (arange c) then Err ValueError
     else Ok (Some (map Some (map g (arange c)), c))) /\
    forall i, 0 <= i < c -> too_few p (column rows i) = false -> limits_for p (column rows i) (g i).
Proof.
  intros [Hn Hov] M. pose proof M as [NE [Hc _]]. destruct (matrix_check X c rows M) as [E1 E2].
  destruct (choose_list (fun i lims => fitter p (column rows i) = (if too_few p (column rows i) then Err ValueError else Ok lims) /\
      (too_few p (column rows i) = false -> limits_for p (column rows i) lims)) ([], []) (arange c) Z.eq_dec) as [g Hg].
  { intros i Hi. apply (fitter_ok p Hn Hov). now apply column_nonempty. }
  exists g. split.
  - unfold cubical_fit. rewrite E1. cbn [bind]. rewrite validate_valid by assumption. cbn [bind]. rewrite E2.
    unfold cubical_fit_. fold (fitter p).
    rewrite (mapM_cond _ (fun i => too_few p (column rows i)) (fun i => Some (g i))).
    + destruct (existsb _ _); [reflexivity|]. cbn [bind]. now rewrite map_map.
    + intros i Hi. destruct (Hg i Hi) as [-> _]. destruct (too_few p (column rows i)); reflexivity.
  - intros i Hi. apply In_arange in Hi. now apply Hg.
Qed.

(** The cover of the line that fitting on the values xs has to give. *)
Definition fitted_cover (p : cover_params) (xs : list Qc) (I : list (fl * fl)) : Prop :=
  match kind p with
  | Uniform => forall lo hi, least lo xs -> largest hi xs -> uniform_cover lo hi (n_intervals p) (overlap_frac p) I
  | Balanced => balanced_cover xs (n_intervals p) (overlap_frac p) I
  end.
(** Some column has a single value although several intervals are required. *)
Definition degenerate (p : cover_params) (c : Z) (rows : list (list Qc)) : Prop :=
  1 < n_intervals p /\ exists j xs, 0 <= j < c /\ coordinate rows j xs /\ one_value xs.

Lemma degenerate_dec p X c rows : matrix_of X c rows ->
  existsb (fun i => too_few p (column rows i)) (arange c) = true <-> degenerate p c rows.
Proof.
  intros [NE [Hc [W _]]]. rewrite existsb_exists. split.
  - intros [j [Hj T]]. apply In_arange in Hj.
    apply too_few_spec in T as [C Hn]; [|now apply column_nonempty]. split; [assumption|].
    exists j, (column rows j). split; [assumption|]. split; [now apply (coordinate_column rows c)|exact C].
  - intros [Hn [j [xs [Hj [Hx O]]]]]. exists j. split; [now apply In_arange|].
    apply too_few_spec; [now apply column_nonempty|]. split; [|assumption].
    now rewrite (coordinate_unique _ _ _ _ (coordinate_column rows c j W Hj) Hx).
Qed.

Theorem cubical_cover_spec : forall p X c rows,
  valid_cover p -> matrix_of X c rows ->
  (degenerate p c rows -> cubical_fit p X = Err ValueError) /\
  (~ degenerate p c rows ->
   exists st covers,
     cubical_fit p X = Ok st /\ zlen covers = c /\
     (forall j xs, 0 <= j < c -> coordinate rows j xs ->
        exists I, Znth covers j = Some I /\ fitted_cover p xs I) /\
     forall Y rows', matrix_of Y c rows' ->
       exists cols B,
         cubical_transform p st Y = Ok cols /\ boxes covers B /\
         masks_of (map in_box B) rows' cols /\
         forall s, 0 <= s < zlen rows' -> in_some_column cols s).
Proof.
  intros p X c rows V M. destruct (cubical_fit_ok p X c rows V M) as [g [E L]].
  pose proof (degenerate_dec p X c rows M) as D. pose proof M as [NE [Hc [W _]]].
  split; intros H.
  - apply D in H. rewrite H in E. exact E.
  - pose proof (dec_const _ _ D H) as ND. rewrite ND in E.
    assert (L' : forall i, 0 <= i < c -> limits_for p (column rows i) (g i)).
    { intros i Hi. apply L; [assumption|]. destruct (too_few p (column rows i)) eqn:T; [|reflexivity].
      rewrite <- ND. symmetry. apply existsb_exists. exists i. split; [now apply In_arange|assumption]. }
    set (limss := map g (arange c)) in *. set (covers := map (fun l => combine (fst l) (snd l)) limss).
    assert (Ll : zlen limss = c) by (unfold limss; rewrite zlen_map, zlen_arange; lia).
    exists (Some (map Some limss, c)), covers. split; [exact E|]. split; [unfold covers; now rewrite zlen_map|]. split.
    + intros j xs Hj Hx. exists (combine (fst (g j)) (snd (g j))). split.
      * unfold covers, limss. rewrite !Znth_map, Znth_arange by assumption. reflexivity.
      * rewrite <- (coordinate_unique _ _ _ _ (coordinate_column rows c j W Hj) Hx). exact (proj1 (L' j Hj)).
    + intros Y rows' MY. destruct (matrix_check Y c rows' MY) as [E1 E2]. pose proof MY as [NE' [_ [W' _]]].
      unfold cubical_transform. rewrite E1. cbn [bind]. rewrite E2, Z.eqb_refl. cbn [negb].
      match goal with |- context [do _ <- ?m; cubical_transform_ _ _] =>
        assert (C1 : m = Ok tt) by (destruct (kind p); [reflexivity|]; now destruct limss) end.
      rewrite C1. cbn [bind]. rewrite transform_somes.
      eexists. exists (product covers). split; [reflexivity|]. split; [apply product_boxes|].
      assert (MO : masks_of (map in_box (product covers)) rows'
        (remove_empty_and_duplicate_intervals
           (map (and_reduce (zlen rows')) (product (mapi (fun i l => cover_masks l (column rows' i)) limss))))).
      { eexists. split; [|apply remove_kept]. apply product_describe. now rewrite Ll. }
      split; [exact MO|]. intros s Hs. destruct (Znth_ex rows' s Hs) as [r Er].
      eapply masks_cover; [exact MO|exact Er|].
      destruct (product_covers covers r) as [b [Hb Hr]].
      * unfold covers, limss. rewrite map_map, Forall_map, Forall_forall. intros i Hi. apply In_arange in Hi.
        exact (proj2 (L' i Hi)).
      * unfold covers. rewrite zlen_map, Ll. rewrite Forall_forall in W'. apply W'. eapply Znth_In_. exact Er.
      * exists (in_box b). split; [now apply in_map|assumption].
Qed.
(** The number of columns is checked. *)
Theorem cubical_dimension_check : forall p X c rows st Y c' rows',
  valid_cover p -> matrix_of X c rows -> cubical_fit p X = Ok st -> matrix_of Y c' rows' -> c' <> c ->
  cubical_transform p st Y = Err DataDimensionalityWarning.
Proof.
  intros p X c rows st Y c' rows' V M E MY N. destruct (cubical_fit_ok p X c rows V M) as [g [E' _]].
  rewrite E' in E. destruct (existsb _ _); [discriminate|]. injection E as <-.
  destruct (matrix_check Y c' rows' MY) as [E1 E2]. unfold cubical_transform. rewrite E1. cbn [bind]. rewrite E2.
  now replace (c' =? c) with false by lia.
Qed.
(** fit_transform is fit followed by transform. *)
Theorem cubical_fit_transform_same : forall p X c rows,
  valid_cover p -> matrix_of X c rows ->
  rmap snd (cubical_fit_transform p X) = (do s <- cubical_fit p X; cubical_transform p s X).
Proof.
  intros p X c rows V M. pose proof M as [NE [Hc _]]. destruct (matrix_check X c rows M) as [E1 E2].
  unfold cubical_fit_transform, cubical_fit. rewrite E1. cbn [bind]. pose proof V as [Hn Hov].
  rewrite validate_valid by assumption. cbn [bind]. rewrite E2. unfold cubical_fit_.
  fold (fitter p). destruct (kind p) eqn:K.
  - replace (fit_uniform p) with (fitter p) by (unfold fitter; now rewrite K).
    destruct (mapM _ (arange c)) as [st|] eqn:Em; [|reflexivity]. cbn [bind fst].
    unfold cubical_transform. rewrite E1. cbn [bind]. rewrite E2, Z.eqb_refl, K. cbn [negb bind].
    destruct (cubical_transform_ st rows); reflexivity.
  - destruct (choose_list (fun i lm => fitter p (column rows i) = (if too_few p (column rows i) then Err ValueError else Ok (fst lm)) /\
      fit_transform_balanced p (column rows i) = (if too_few p (column rows i) then Err ValueError else Ok (snd lm)) /\
      (too_few p (column rows i) = false -> keep [] (cover_masks (fst lm) (column rows i)) = keep [] (snd lm)))
      (([], []), []) (arange c) Z.eq_dec) as [g Hg].
    { intros i Hi. destruct (fit_transform_balanced_same p Hn Hov (column rows i) (column_nonempty rows i NE) K) as [l [m H]].
      now exists (l, m). }
    rewrite (mapM_cond _ (fun i => too_few p (column rows i)) (fun i => snd (g i))) by (intros i Hi; now destruct (Hg i Hi) as [_ [? _]]).
    rewrite (mapM_cond _ (fun i => too_few p (column rows i)) (fun i => Some (fst (g i)))).
    2:{ intros i Hi. destruct (Hg i Hi) as [-> _]. destruct (too_few p (column rows i)); reflexivity. }
    destruct (existsb (fun i => too_few p (column rows i)) (arange c)) eqn:Ex; [reflexivity|]. cbn [bind rmap snd].
    unfold cubical_transform. rewrite E1. cbn [bind]. rewrite E2, Z.eqb_refl, K. cbn [negb].
    rewrite <- (map_map (fun i => fst (g i)) Some).
    match goal with |- context [do _ <- ?m; cubical_transform_ _ _] =>
      assert (C1 : m = Ok tt) by (now destruct (arange c)) end.
    rewrite C1. cbn [bind]. rewrite transform_somes. unfold combine_one_dim_covers. f_equal.
    rewrite !remove_keep. apply product_keep.
    assert (Em : mapi (fun i l => cover_masks l (column rows i)) (map (fun i => fst (g i)) (arange c)) =
                 map (fun i => cover_masks (fst (g i)) (column rows i)) (arange c)).
    { apply Znth_ext; rewrite zlen_mapi, ?zlen_map; [reflexivity|]. intros i Hi. rewrite zlen_arange in Hi by lia.
      rewrite Znth_mapi, !Znth_map, Znth_arange by assumption. reflexivity. }
    rewrite Em. assert (T : forall i, In i (arange c) -> too_few p (column rows i) = false).
    { intros i Hi. destruct (too_few p (column rows i)) eqn:T; [|reflexivity]. rewrite <- Ex. symmetry.
      apply existsb_exists. exists i. auto. }
    revert Hg T. clear. induction (arange c) as [|i l IH]; intros Hg T; cbn; constructor.
    + symmetry. apply Hg; [now left|]. apply T. now left.
    + apply IH; intros; [apply Hg|apply T]; now right.
Qed.
(** Finding: after a balanced fit_transform the stored coverers are not fitted. *)
Theorem cubical_balanced_transform_after_fit_transform : forall p X c rows st cols Y rows',
  kind p = Balanced -> matrix_of X c rows -> cubical_fit_transform p X = Ok (st, cols) ->
  matrix_of Y c rows' -> cubical_transform p st Y = Err NotFittedError.
Proof.
  intros p X c rows st cols Y rows' K M E MY. destruct (matrix_check X c rows M) as [E1 E2].
  destruct (matrix_check Y c rows' MY) as [E3 E4]. pose proof M as [_ [Hc _]].
  unfold cubical_fit_transform in E. rewrite E1, K in E. cbn [bind] in E.
  destruct (validate_cover p); [|discriminate]. cbn [bind] in E. rewrite E2 in E.
  destruct (mapM _ (arange c)); [|discriminate]. cbn [bind] in E. injection E as <- _.
  unfold cubical_transform. rewrite E3. cbn [bind]. rewrite E4, Z.eqb_refl, K. cbn [negb].
  replace c with (c - 1 + 1) by lia. unfold arange. rewrite tabZ_S_front by lia. reflexivity.
Qed.
Definition ex_rows : list (list Qc) := [[Q2Qc 0; Q2Qc 5]; [Q2Qc 1; Q2Qc 7]; [Q2Qc 4; Q2Qc 6]].
Example cubical_hyps : matrix_of (D2 2 ex_rows) 2 ex_rows /\ ~ degenerate ex_cover 2 ex_rows.
Proof.
  split.
  - split; [discriminate|]. split; [lia|]. split; [repeat constructor|now left].
  - intros D. apply (degenerate_dec ex_cover (D2 2 ex_rows)) in D; [vm_compute in D; discriminate|].
    split; [discriminate|]. split; [lia|]. split; [repeat constructor|now left].
Qed.
Example cubical_ex : rmap snd (cubical_fit_transform (CParams Balanced 2 (Q2Qc (1 # 4))) (D2 2 ex_rows)) =
  Ok [[true; false; false]; [false; true; false]; [false; false; true]; [false; true; true]].
Proof. reflexivity. Qed.
Print Assumptions cubical_cover_spec.
Print Assumptions cubical_dimension_check.
Print Assumptions cubical_fit_transform_same.
Print Assumptions cubical_balanced_transform_after_fit_transform.
