(** Lemmas about covers as a whole: masks, products, CubicalCover. *)
From Coq Require Import Permutation Sorted.
From Verif Require Import Np NpFacts Fl FlFacts DiagModel VecModel CoverModel CoverSpec CoverProofs CoverProofs2 CoverProofs3.
Open Scope Z_scope.

Lemma cover_masks_all lims X :
  Forall2 (fun S c => describes S X c) (map inside (combine (fst lims) (snd lims))) (cover_masks lims X).
Proof.
  unfold cover_masks. induction (combine (fst lims) (snd lims)) as [|I l IH]; cbn; constructor; [|assumption].
  apply cover_masks_describe.
Qed.
Lemma describes_Znth {A} (S : A -> Prop) X c p x :
  describes S X c -> Znth X p = Some x -> S x -> Znth c p = Some true.
Proof.
  intros D. revert p; induction D as [|y b X c H D IH]; intros p Hp Sx.
  - apply Znth_In_ in Hp. destruct Hp.
  - pose proof (Znth_pos _ _ _ Hp). destruct (Z.eq_dec p 0) as [->|].
    + change (Some y = Some x) in Hp. injection Hp as ->. change (Some b = Some true). f_equal. now apply H.
    + replace p with (1 + (p - 1)) in Hp by lia. rewrite Znth_S in Hp by lia.
      replace p with (1 + (p - 1)) by lia. rewrite Znth_S by lia. now apply IH.
Qed.
Lemma masks_cover {A} (sets : list (A -> Prop)) X cols p x :
  masks_of sets X cols -> Znth X p = Some x -> (exists S, In S sets /\ S x) -> in_some_column cols p.
Proof.
  intros [all [F K]] Hp [S [HS Sx]]. apply (kept_covers _ _ _ K). clear K.
  induction F as [|S' c sets all D F IH]; [easy|]. destruct HS as [->|HS].
  - exists c. split; [now left|]. eapply describes_Znth; eassumption.
  - destruct (IH HS) as [c' [H1 H2]]. exists c'. split; [now right|assumption].
Qed.
Lemma masks_of_remove lims X :
  masks_of (map inside (combine (fst lims) (snd lims))) X
    (remove_empty_and_duplicate_intervals (cover_masks lims X)).
Proof. eexists. split; [apply cover_masks_all|apply remove_kept]. Qed.

(** What fitting on one column gives. *)
Definition limits_for (p : cover_params) (X : list Qc) (lims : list fl * list fl) : Prop :=
  let I := combine (fst lims) (snd lims) in
  (match kind p with
   | Uniform => forall lo hi, least lo X -> largest hi X -> uniform_cover lo hi (n_intervals p) (overlap_frac p) I
   | Balanced => balanced_cover X (n_intervals p) (overlap_frac p) I
   end) /\ forall x, exists i, In i I /\ inside i x.

Definition constant (X : list Qc) : Prop := forall x y, In x X -> In y X -> x = y.
Lemma distinct_constant X : X <> [] -> (distinct X = 1 <-> constant X).
Proof.
  intros H. pose proof (distinct_pos X H). split.
  - intros E x y Hx Hy. apply (rank_inj X); try assumption.
    pose proof (rank_nonneg X x). pose proof (rank_upper X x Hx).
    pose proof (rank_nonneg X y). pose proof (rank_upper X y Hy). lia.
  - intros C. destruct (Z.eq_dec (distinct X) 1) as [|N]; [assumption|].
    destruct (rank_surj X 0) as [v [Hv E]]; [lia|]. destruct (rank_surj X 1) as [w [Hw E']]; [lia|].
    rewrite (C v w Hv Hw) in E. lia.
Qed.
Lemma least_exists X : X <> [] -> exists lo, least lo X.
Proof. destruct X as [|x t]; [easy|]. intros _. exists (qmin_list x t). apply qmin_list_spec. Qed.
Lemma largest_exists X : X <> [] -> exists lo, largest lo X.
Proof. destruct X as [|x t]; [easy|]. intros _. exists (qmax_list x t). apply qmax_list_spec. Qed.
Lemma min_max_constant X lo hi : least lo X -> largest hi X -> (lo = hi <-> constant X).
Proof.
  intros [L1 L2] [H1 H2]. split.
  - intros <- x y Hx Hy. transitivity lo; [|symmetry]; apply Qcle_antisym; auto.
  - intros C. now apply C.
Qed.

Definition fitter (p : cover_params) := match kind p with Uniform => fit_uniform | Balanced => fit_balanced end p.
Definition too_few (p : cover_params) (X : list Qc) : bool := (distinct X =? 1) && (1 <? n_intervals p).
Lemma too_few_spec p X : X <> [] -> too_few p X = true <-> constant X /\ 1 < n_intervals p.
Proof.
  intros H. unfold too_few. rewrite andb_true_iff, Z.eqb_eq, Z.ltb_lt, (distinct_constant X H). reflexivity.
Qed.
Section Fit.
  Variable p : cover_params.
  Hypothesis Hn : 1 <= n_intervals p.
  Hypothesis Hov : (0 < overlap_frac p /\ overlap_frac p < 1)%Qc.

  Lemma fitter_ok X : X <> [] ->
    exists lims, fitter p X = (if too_few p X then Err ValueError else Ok lims) /\
      (too_few p X = false -> limits_for p X lims).
  Proof.
    intros HX. unfold fitter, limits_for. destruct (kind p).
    - destruct (least_exists X HX) as [lo Hlo]. destruct (largest_exists X HX) as [hi Hhi].
      pose proof (fit_uniform_ok p X lo hi Hn Hov Hlo Hhi) as E. cbv zeta in E.
      assert (T : Qceqb lo hi && (1 <? n_intervals p) = too_few p X).
      { unfold too_few. f_equal. apply eq_true_iff_eq.
        rewrite Qceqb_eq, Z.eqb_eq, (min_max_constant X) by eassumption. symmetry. now apply distinct_constant. }
      rewrite T in E. eexists. split; [exact E|]. intros NT. cbn [fst snd]. split.
      + intros lo' hi' Hlo' Hhi'. rewrite (least_unique _ _ _ Hlo' Hlo), (largest_unique _ _ _ Hhi' Hhi).
        now apply uniform_is_cover.
      + intros x. apply (uniform_covers_line lo hi (n_intervals p) (overlap_frac p)); [assumption|assumption| |now apply uniform_is_cover].
        rewrite <- T in NT. apply andb_false_iff in NT as [NT|NT]; [left|right; lia].
        assert (L : (lo <= hi)%Qc) by (apply Hlo, Hhi). apply Qcle_lt_or_eq in L as [|L]; [assumption|].
        apply Qceqb_eq in L. congruence.
    - eexists. split; [apply (fit_balanced_ok p X Hn Hov HX)|]. intros NT. cbn [fst snd].
      assert (Hok : 2 <= distinct X \/ n_intervals p = 1).
      { unfold too_few in NT. pose proof (distinct_pos X HX). apply andb_false_iff in NT as [NT|NT]; lia. }
      split; [now apply balanced_is_cover|]. intros x. now apply balanced_covers_line.
  Qed.
  Lemma fit_transform_balanced_same X : X <> [] -> kind p = Balanced ->
    exists lims masks, fitter p X = (if too_few p X then Err ValueError else Ok lims) /\
      fit_transform_balanced p X = (if too_few p X then Err ValueError else Ok masks) /\
      (too_few p X = false -> keep [] (cover_masks lims X) = keep [] masks).
  Proof.
    intros HX K. unfold fitter. rewrite K. do 2 eexists. split; [apply (fit_balanced_ok p X Hn Hov HX)|].
    split; [apply (fit_transform_balanced_ok p X Hn HX)|]. intros NT. rewrite masks_balanced.
    apply (balanced_keep p X Hn Hov HX). unfold too_few in NT. pose proof (distinct_pos X HX).
    apply andb_false_iff in NT as [NT|NT]; lia.
  Qed.
End Fit.

Lemma validate_ok p : (exists e, validate_cover p = Err e) \/
  (validate_cover p = Ok tt /\ 1 <= n_intervals p /\ (0 < overlap_frac p /\ overlap_frac p < 1)%Qc).
Proof.
  unfold validate_cover. destruct (Z.ltb_spec (n_intervals p) 1); cbn; [left; eauto|].
  destruct (Qcleb_spec (overlap_frac p) 0); cbn; [left; eauto|].
  destruct (Qcleb_spec 1 (overlap_frac p)); cbn; [left; eauto|]. right.
  split; [reflexivity|]. split; [assumption|]. split; now apply Qcnle.
Qed.
Lemma validate_valid p : 1 <= n_intervals p -> (0 < overlap_frac p /\ overlap_frac p < 1)%Qc -> validate_cover p = Ok tt.
Proof.
  intros Hn [H0 H1]. unfold validate_cover. replace (n_intervals p <? 1) with false by lia. cbn.
  destruct (Qcleb_spec (overlap_frac p) 0) as [L|]; [exfalso; exact (Qclt_not_le _ _ H0 L)|].
  destruct (Qcleb_spec 1 (overlap_frac p)) as [L|]; [exfalso; exact (Qclt_not_le _ _ H1 L)|]. reflexivity.
Qed.

Lemma one_dim_same p st X :
  rmap snd (cover_fit_transform p st X) = (do s <- cover_fit p X; cover_transform p s X).
Proof.
  unfold cover_fit_transform, cover_fit. destruct (check_array_ X) as [X'|] eqn:EX; [|reflexivity]. cbn [bind].
  assert (X' = X) as ->.
  { destruct X as [[|]|c [|]]; cbn in EX; try congruence. destruct (c <? 1); congruence. }
  destruct (validate_ok p) as [[e ->]|[-> [Hn Hov]]]; [reflexivity|]. cbn [bind].
  destruct (one_column X) as [xs|] eqn:E1; [|reflexivity]. cbn [bind].
  fold (fitter p). destruct (kind p) eqn:K.
  - replace (fit_uniform p xs) with (fitter p xs) by (unfold fitter; now rewrite K).
    destruct (fitter p xs) as [lims|]; [|reflexivity]. cbn [bind rmap snd]. unfold cover_transform.
    rewrite EX. cbn [bind]. rewrite E1. reflexivity.
  - destruct xs as [|x xs].
    { (* an array without values *)
      unfold fitter. rewrite K. unfold fit_balanced, fit_transform_balanced. cbn [rankdata map].
      destruct (find_interval_limits [] (n_intervals p) (overlap_frac p) false) as [[l r]|]; [|reflexivity].
      cbn [bind rmap snd]. unfold cover_transform. rewrite EX. cbn [bind]. rewrite E1. cbn [bind].
      f_equal. rewrite !remove_keep.
      assert (G : forall lims, keep [] (cover_masks lims []) = []).
      { intros lims. unfold cover_masks. induction (combine (fst lims) (snd lims)); [reflexivity|]. cbn. assumption. }
      now rewrite !G. }
    destruct (fit_transform_balanced_same p Hn Hov (x :: xs) ltac:(easy) K) as [lims [masks [-> [-> H]]]].
    destruct (too_few p (x :: xs)); [reflexivity|]. cbn [bind rmap snd]. unfold cover_transform.
    rewrite EX. cbn [bind]. rewrite E1. cbn [bind]. f_equal. rewrite !remove_keep. symmetry. now apply H.
Qed.

(** ** Products *)
Lemma and_reduce_cons n x t : and_reduce n (x :: t) = zip_and x (and_reduce n t).
Proof. reflexivity. Qed.
Lemma product_tensor n V Vs :
  map (and_reduce n) (product (V :: Vs)) = tensor V (map (and_reduce n) (product Vs)).
Proof.
  cbn [product]. unfold tensor. induction V as [|x V IH]; cbn [flat_map]; [reflexivity|].
  rewrite map_app, IH, !map_map. reflexivity.
Qed.
Lemma product_keep n Vs Ws :
  Forall2 (fun V W => keep [] V = keep [] W) Vs Ws ->
  keep [] (map (and_reduce n) (product Vs)) = keep [] (map (and_reduce n) (product Ws)).
Proof.
  induction 1 as [|V W Vs Ws E F IH]; [reflexivity|]. rewrite !product_tensor. now apply keep_tensor.
Qed.
Lemma product_boxes covers : boxes covers (product covers).
Proof.
  induction covers as [|I covers IH]; [constructor|]. cbn [product]. rewrite flat_map_concat_map. now constructor.
Qed.
Lemma describes_zip I b rows c1 c2 :
  Forall (fun r => r <> []) rows ->
  describes (inside I) (column rows 0) c1 -> describes (in_box b) (map (@tl Qc) rows) c2 ->
  describes (in_box (I :: b)) rows (zip_and c1 c2).
Proof.
  unfold describes. intros N. revert c1 c2; induction N as [|r rows Hr N IH]; intros c1 c2 H1 H2.
  - inversion H1; subst. constructor.
  - cbn in H1, H2. inversion H1; inversion H2; subst. cbn. constructor; [|now apply IH].
    destruct r as [|x r]; [easy|]. cbn in *. rewrite andb_true_iff. unfold in_box in *.
    rewrite H3, H8. split.
    + intros [? ?]. now constructor.
    + intros F. now inversion F.
Qed.
Lemma column_tl rows i : 0 <= i -> column rows (1 + i) = column (map (@tl Qc) rows) i.
Proof.
  intros Hi. unfold column. rewrite map_map. apply map_ext. intros [|x r]; [|cbn [tl]; now rewrite Znth_S].
  cbn [tl]. assert (G : forall k, Znth (@nil Qc) k = None) by (intros k; unfold Znth; destruct (k <? 0); [reflexivity|]; now destruct (Z.to_nat k)).
  now rewrite !G.
Qed.
Lemma mapi_from_S {A B} (f : Z -> A -> B) l i : mapi_from (1 + i) f l = mapi_from i (fun k => f (1 + k)) l.
Proof.
  revert i; induction l as [|x l IH]; intros i; cbn [mapi_from]; [reflexivity|]. f_equal.
  replace (1 + i + 1) with (1 + (i + 1)) by lia. apply IH.
Qed.
Lemma mapi_from_ext' {A B} (f g : Z -> A -> B) l i : 0 <= i ->
  (forall k x, 0 <= k -> f k x = g k x) -> mapi_from i f l = mapi_from i g l.
Proof.
  intros Hi H. revert i Hi; induction l as [|x l IH]; intros i Hi; cbn; [reflexivity|].
  f_equal; [now apply H|apply IH; lia].
Qed.
Lemma product_describe limss : forall rows,
  Forall (fun r => zlen r = zlen limss) rows ->
  Forall2 (fun S c => describes S rows c)
    (map in_box (product (map (fun l => combine (fst l) (snd l)) limss)))
    (map (and_reduce (zlen rows)) (product (mapi (fun i l => cover_masks l (column rows i)) limss))).
Proof.
  induction limss as [|lims limss IH]; intros rows W.
  - cbn. constructor; [|constructor]. unfold describes, and_reduce. cbn.
    replace (Z.to_nat (zlen rows)) with (length rows) by (unfold zlen; lia).
    induction W as [|r rows Hr W IHr]; cbn; constructor; [|assumption].
    split; [|reflexivity]. intros _. destruct r; [constructor|]. rewrite zlen_cons in Hr. change (zlen (@nil (list fl * list fl))) with 0 in Hr. pose proof (zlen_nonneg r). lia.
  - assert (N : Forall (fun r => r <> []) rows).
    { eapply Forall_impl; [|exact W]. cbn beta. intros [|] H; [|easy]. rewrite zlen_cons in H.
      change (zlen (@nil Qc)) with 0 in H. pose proof (zlen_nonneg limss). lia. }
    assert (W' : Forall (fun r => zlen r = zlen limss) (map (@tl Qc) rows)).
    { rewrite Forall_map. rewrite Forall_forall in *. intros r Hr. specialize (W r Hr). specialize (N r Hr).
      destruct r; [easy|]. rewrite !zlen_cons in W. cbn [tl]. lia. }
    specialize (IH _ W'). rewrite zlen_map in IH.
    unfold mapi. cbn [map mapi_from]. rewrite product_tensor.
    change (0 + 1) with (1 + 0). rewrite mapi_from_S.
    rewrite (mapi_from_ext' _ (fun i l => cover_masks l (column (map (@tl Qc) rows) i))) by
      (try lia; intros k x Hk; now rewrite column_tl).
    fold (mapi (fun i l => cover_masks l (column (map (@tl Qc) rows) i)) limss).
    cbn [product]. revert IH. generalize (product (map (fun l => combine (fst l) (snd l)) limss)).
    generalize (map (and_reduce (zlen rows)) (product (mapi (fun i l => cover_masks l (column (map (@tl Qc) rows) i)) limss))).
    intros Cs Bs F. unfold tensor.
    pose proof (cover_masks_all lims (column rows 0)) as M. revert M.
    generalize (cover_masks lims (column rows 0)). generalize (combine (fst lims) (snd lims)).
    intros Is Ms M. revert Ms M. induction Is as [|I Is IHI]; intros Ms M; inversion M; subst; cbn; [constructor|].
    rewrite map_app. apply Forall2_app; [|now apply IHI]. rewrite map_map.
    clear - F H1 N. induction Bs as [|b Bs IHB] in Cs, F |- *; inversion F; subst; cbn; constructor; [|now apply IHB].
    now apply describes_zip.
Qed.
Lemma product_covers covers x :
  Forall (fun I => forall q, exists i, In i I /\ inside i q) covers -> zlen x = zlen covers ->
  exists b, In b (product covers) /\ in_box b x.
Proof.
  intros F. revert x; induction F as [|I covers H F IH]; intros x L.
  - exists []. split; [now left|]. destruct x; [constructor|]. rewrite zlen_cons in L.
    change (zlen (@nil (list (fl * fl)))) with 0 in L. pose proof (zlen_nonneg x). lia.
  - destruct x as [|q x].
    { rewrite zlen_cons in L. change (zlen (@nil Qc)) with 0 in L. pose proof (zlen_nonneg covers). lia. }
    rewrite !zlen_cons in L. destruct (IH x ltac:(lia)) as [b [Hb Hx]]. destruct (H q) as [i [Hi Hq]].
    exists (i :: b). split; [|now constructor]. cbn [product]. apply in_flat_map. exists i. split; [assumption|].
    now apply in_map.
Qed.

(** ** CubicalCover *)
Lemma mapM_cond {A B} (f : A -> res B) (c : A -> bool) (g : A -> B) l :
  (forall x, In x l -> f x = if c x then Err ValueError else Ok (g x)) ->
  mapM f l = if existsb c l then Err ValueError else Ok (map g l).
Proof.
  induction l as [|x l IH]; intros H; cbn; [reflexivity|].
  rewrite (H x (or_introl eq_refl)). destruct (c x); [reflexivity|]. cbn [bind orb].
  rewrite IH by (intros; apply H; now right). destruct (existsb c l); reflexivity.
Qed.
Lemma choose_list {A B} (P : A -> B -> Prop) (d : B) (l : list A) (eqd : forall x y : A, {x = y} + {x <> y}) :
  (forall x, In x l -> exists y, P x y) -> exists g, forall x, In x l -> P x (g x).
Proof.
  induction l as [|a l IH]; intros H; [now exists (fun _ => d)|].
  destruct (H a (or_introl eq_refl)) as [y Hy]. destruct IH as [g Hg]; [intros; apply H; now right|].
  exists (fun x => if eqd x a then y else g x). intros x Hx. destruct (eqd x a) as [->|N]; [assumption|].
  apply Hg. destruct Hx as [->|]; [easy|assumption].
Qed.
Lemma column_nonempty rows i : rows <> [] -> column rows i <> [].
Proof. destruct rows; [easy|]. discriminate. Qed.
Lemma transform_somes limss rows :
  cubical_transform_ (map Some limss) rows =
  Ok (remove_empty_and_duplicate_intervals
        (map (and_reduce (zlen rows)) (product (mapi (fun i l => cover_masks l (column rows i)) limss)))).
Proof.
  unfold cubical_transform_.
  rewrite (mapM_Ok _ (fun ic => match snd ic with Some l => cover_masks l (column rows (fst ic)) | None => [] end)).
  - cbn [bind]. unfold combine_one_dim_covers. do 4 f_equal. unfold mapi. generalize 0 as i.
    induction limss as [|l limss IH]; intros i; cbn; [reflexivity|]. f_equal. apply IH.
  - intros ic Hi. unfold mapi in Hi. revert Hi. generalize 0 as i.
    induction limss as [|l limss IH]; intros i; cbn; [easy|]. intros [<-|H]; [reflexivity|]. now apply IH in H.
Qed.
