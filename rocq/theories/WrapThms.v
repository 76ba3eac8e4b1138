(** C100: what the plots of preprocessed persistence diagrams show. *)
From Verif Require Import Np NpFacts Fl FlFacts DiagTypes DiagModel DiagSpec DiagProofs DiagProofs2 DiagProofs3 DiagThms
  VecModel VecSpec PlotTypes PlotModel PlotSpec PlotThms PlotThms3 WrapModel WrapSpec.
From Coq Require Import Permutation Sorted.
Open Scope Z_scope.

(** *** Helpers *)
Lemma Forall2_impl {A B} (P Q : A -> B -> Prop) l l' : (forall a b, P a b -> Q a b) -> Forall2 P l l' -> Forall2 Q l l'.
Proof. intros H. induction 1; constructor; auto. Qed.

Lemma named_nan q n : named q n -> isnan q = false.
Proof. intros [[-> _]|[k [-> _]]]; reflexivity. Qed.

Lemma shown_app q l l' : shown_rows q (l ++ l') = shown_rows q l ++ shown_rows q l'.
Proof. unfold shown_rows. now rewrite filter_app. Qed.

Lemma shown_none q l : (forall p, In p l -> pq p <> q \/ feq (pb p) (pd p) = true) -> shown_rows q l = [].
Proof.
  induction l as [|p l IH]; intros H; [reflexivity|]. unfold shown_rows in *. cbn [filter].
  rewrite IH by (intros; apply H; now right). destruct (H p (or_introl eq_refl)) as [A|A].
  - destruct (feq (pq p) q) eqn:E; [apply feq_eq in E; easy|reflexivity].
  - rewrite A, andb_false_r. reflexivity.
Qed.

Lemma shown_all q l : isnan q = false -> (forall p, In p l -> pq p = q /\ feq (pb p) (pd p) = false) -> shown_rows q l = l.
Proof.
  intros Hq. induction l as [|p l IH]; intros H; [reflexivity|]. unfold shown_rows in *. cbn [filter].
  rewrite IH by (intros; apply H; now right). destruct (H p (or_introl eq_refl)) as [A B].
  now rewrite A, B, feq_refl.
Qed.

Lemma figure_of_plot x dims : drawable x -> (forall q, In q dims -> exists n, named q n) ->
  exists fig, plot_diagram x (Some dims) = Ok fig /\ figure_shows fig dims (fun q => shown_rows q x).
Proof.
  intros HD HN.
  destruct (plot_diagram_spec x (Some dims) dims (drawable_plottable _ HD) eq_refl HN) as [lo [hi [HE [Hle [margin [ms [M1 [M2 [FM [last [L1 [L2 E]]]]]]]]]]]].
  eexists. split; [exact E|]. eexists _, ms, last. split; [reflexivity|]. split; [eexists _, _; reflexivity|]. split.
  - intros t Ht. destruct (existsb (fun p => isposinf (pd p)) (off x)) eqn:Ex.
    + rewrite L1 in Ht by (apply has_infinite_ok; [now apply drawable_plottable|assumption]).
      destruct Ht as [<-|[]]. eexists _, _, _. reflexivity.
    + rewrite L2 in Ht; [destruct Ht|]. intros C. apply has_infinite_ok in C; [congruence|now apply drawable_plottable].
  - eapply Forall2_impl; [|exact FM]. intros q t [n [Hn ->]]. exists n. split; [assumption|].
    eexists _, _. split; [reflexivity|]. induction (shown_rows q x); constructor; auto.
Qed.

Lemma figure_shows_ext fig dims f g : (forall q, In q dims -> f q = g q) -> figure_shows fig dims f -> figure_shows fig dims g.
Proof.
  intros H [a [ms [l [E [A [B F]]]]]]. exists a, ms, l. split; [assumption|]. split; [assumption|]. split; [assumption|].
  clear E A B. induction F as [|q t ds ms [n [Hn Ht]] F IH]; constructor.
  - exists n. split; [assumption|]. now rewrite <- H by now left.
  - apply IH. intros; apply H; now right.
Qed.

Lemma long_lived_off eps q y p : fle f0 eps = true -> drawable y -> In p (long_lived eps q y) ->
  In p y /\ pq p = q /\ feq (pb p) (pd p) = false.
Proof.
  intros He HD Hp. unfold long_lived, rows_of in Hp. apply filter_In in Hp. destruct Hp as [Hp Hl].
  apply filter_In in Hp. destruct Hp as [Hp Hq]. apply feq_eq in Hq. split; [assumption|]. split; [assumption|].
  destruct (feq (pb p) (pd p)) eqn:F; [|reflexivity]. apply feq_eq in F.
  destruct (HD p Hp) as [[b Eb] _]. rewrite <- F, Eb in Hl. cbn [fsub fopp fadd] in Hl.
  replace (b + - b)%Qc with 0%Qc in Hl by ring. apply flt_not_fle in Hl. unfold f0 in He. congruence.
Qed.

Lemma shown_padded eps y n m q q' : fle f0 eps = true -> drawable y -> isnan q = false -> isnan m = false ->
  shown_rows q (padded n m q' (long_lived eps q' y)) = if feq q' q then long_lived eps q y else [].
Proof.
  intros He HD Hq Hm. unfold padded. rewrite shown_app.
  rewrite (shown_none q (diag_rows _ _ _)), app_nil_r.
  - destruct (feq q' q) eqn:E.
    + apply feq_eq in E. subst q'. apply shown_all; [assumption|]. intros p Hp. now apply (long_lived_off eps q y p He HD) in Hp.
    + apply shown_none. intros p Hp. left. apply (long_lived_off eps q' y p He HD) in Hp. destruct Hp as [_ [-> _]].
      intros ->. rewrite feq_refl in E; easy.
  - intros p Hp. apply repeat_spec in Hp. subst p. right. cbn. now apply feq_refl.
Qed.

Lemma Forall2_of_combine {A B C} (P : A -> B * C -> Prop) (fs : list A) ns ms :
  zlen ns = zlen fs -> zlen ms = zlen fs ->
  (forall i q, Znth fs i = Some q -> exists n m, Znth ns i = Some n /\ Znth ms i = Some m /\ P q (n, m)) ->
  Forall2 P fs (combine ns ms).
Proof.
  revert ns ms. induction fs as [|q fs IH]; intros [|n ns] [|m ms] L1 L2 H;
    rewrite ?zlen_cons in *; try (exfalso; unfold zlen in *; cbn in *; lia); [constructor|].
  cbn [combine]. constructor.
  - destruct (H 0 q) as [n' [m' [E1 [E2 E3]]]]; [apply Znth_0|]. rewrite Znth_0 in E1. rewrite Znth_0 in E2. injection E1 as <-. injection E2 as <-. assumption.
  - apply IH; try lia. intros i r Hr. assert (Hi := Znth_Some_lt _ _ _ Hr). destruct (H (i + 1) r) as [n' [m' D]].
    + rewrite Znth_cons by lia. now replace (i + 1 - 1) with i by lia.
    + rewrite !Znth_cons in D by lia. replace (i + 1 - 1) with i in D by lia. eauto.
Qed.

Lemma shown_filtered eps y q fs nms : fle f0 eps = true -> drawable y -> isnan q = false -> NoDup fs ->
  Forall2 (fun _ nm => isnan (snd nm) = false) fs nms ->
  shown_rows q (concat (map (fun qnm : fl * (Z * fl) => padded (fst (snd qnm)) (snd (snd qnm)) (fst qnm) (long_lived eps (fst qnm) y)) (combine fs nms)))
  = if existsb (fun q' => feq q' q) fs then long_lived eps q y else [].
Proof.
  intros He HD Hq HN F. induction F as [|f nm fs nms Hm F IH]; [reflexivity|]. inversion HN as [|? ? Hnin HN']; subst.
  cbn [combine map concat existsb]. rewrite shown_app, IH by assumption. cbn [fst snd]. rewrite shown_padded by assumption.
  destruct (feq f q) eqn:E; cbn [orb]; [|reflexivity]. apply feq_eq in E. subst f.
  assert (E : existsb (fun q' => feq q' q) fs = false).
  { apply not_true_is_false. intros C. apply existsb_exists in C. destruct C as [z [Hz C]]. apply feq_eq in C. now subst z. }
  rewrite E. apply app_nil_r.
Qed.

Lemma drawable_filtered eps y fs nms others : drawable y -> Forall2 (fun _ nm => exists b : Qc, snd nm = Fin b) fs nms ->
  drawable (concat (map (fun qnm : fl * (Z * fl) => padded (fst (snd qnm)) (snd (snd qnm)) (fst qnm) (long_lived eps (fst qnm) y)) (combine fs nms))
    ++ concat (map (fun q => rows_of q y) others)).
Proof.
  intros HD F p Hp. apply in_app_or in Hp. destruct Hp as [Hp|Hp].
  - induction F as [|f nm fs nms [b Hb] F IH]; [destruct Hp|]. cbn [combine map concat fst snd] in Hp.
    apply in_app_or in Hp. destruct Hp as [Hp|Hp]; [|auto]. unfold padded in Hp. apply in_app_or in Hp. destruct Hp as [Hp|Hp].
    + unfold long_lived, rows_of in Hp. apply filter_In in Hp. destruct Hp as [Hp _]. apply filter_In in Hp. now apply HD.
    + apply repeat_spec in Hp. subst p. cbn. rewrite Hb. split; eauto.
  - apply in_concat in Hp. destruct Hp as [l [Hl Hp]]. apply in_map_iff in Hl. destruct Hl as [q [<- _]].
    apply filter_In in Hp. now apply HD.
Qed.

Lemma shown_others q y others : ~ In q others -> shown_rows q (concat (map (fun q' => rows_of q' y) others)) = [].
Proof.
  intros H. apply shown_none. intros p Hp. left. apply in_concat in Hp. destruct Hp as [l [Hl Hp]].
  apply in_map_iff in Hl. destruct Hl as [q' [<- Hq]]. apply filter_In in Hp. destruct Hp as [_ E]. apply feq_eq in E.
  rewrite E. now intros ->.
Qed.

(** *** Errors: without a fit the default dimensions are an AttributeError, and a sample outside
    the collection is an IndexError. *)
Theorem preprocessor_plot_errors Xt sample :
  preprocessor_plot None Xt sample None = Err AttributeError /\
  (forall fitted given, given <> None \/ fitted <> None -> sample < - zlen Xt \/ zlen Xt <= sample ->
     preprocessor_plot fitted Xt sample given = Err IndexError) /\
  (forall given, sample < - zlen Xt \/ zlen Xt <= sample -> homology_plot Xt sample given = Err IndexError).
Proof.
  assert (G : sample < - zlen Xt \/ zlen Xt <= sample -> py_get Xt sample = Err IndexError).
  { intros H. unfold py_get. pose proof (zlen_nonneg Xt). destruct (Znth Xt _) eqn:E; [|reflexivity].
    apply Znth_Some_lt in E. destruct (Z.ltb_spec sample 0); lia. }
  split; [reflexivity|]. split.
  - intros fitted given H Hs. unfold preprocessor_plot. rewrite G by assumption.
    destruct given, fitted; try reflexivity. destruct H; easy.
  - intros given Hs. unfold homology_plot. now rewrite G.
Qed.

(** Dimensions given explicitly make the fitted ones irrelevant; the plot is then the one the
    homology transformers draw of the same array. *)
Theorem preprocessor_plot_explicit fitted Xt sample dims :
  preprocessor_plot fitted Xt sample (Some dims) = homology_plot Xt sample (Some dims).
Proof. reflexivity. Qed.

(** A negative sample counts from the end. *)
Theorem plot_negative_sample fitted Xt sample given :
  - zlen Xt <= sample < 0 ->
  preprocessor_plot fitted Xt sample given = preprocessor_plot fitted Xt (zlen Xt + sample) given /\
  homology_plot Xt sample given = homology_plot Xt (zlen Xt + sample) given.
Proof.
  intros H. assert (E : py_get Xt sample = py_get Xt (zlen Xt + sample)).
  { unfold py_get. destruct (Z.ltb_spec sample 0), (Z.ltb_spec (zlen Xt + sample) 0); try lia. do 2 f_equal. now rewrite Z.add_comm. }
  unfold preprocessor_plot, homology_plot. now rewrite E.
Qed.

(** *** Filtering: the plot of a filtered diagram shows, for each filtered dimension in
    increasing order, exactly the points of the diagram given to [transform] that live longer
    than epsilon; padding points and the dimensions left alone are not drawn. *)
Theorem filtering_plot_shows homology_dimensions epsilon X Y sample y :
  X <> [] -> labelled X -> labelled Y -> (forall x, In x Y -> drawable x) -> fle f0 epsilon = true ->
  match homology_dimensions with Some l => NoDup l | None => True end ->
  (forall q, In q (map pq (hd [] Y)) -> balanced q Y) ->
  item Y sample y ->
  exists dims fig, filtering_then_plot homology_dimensions epsilon X Y sample = Ok fig /\
    match homology_dimensions with
    | Some l => Permutation dims (map fz l) /\ StronglySorted (fun a b => fle a b = true) dims
    | None => increasing dims /\ forall q, In q dims <-> In q (map pq (hd [] X))
    end /\
    figure_shows fig dims (fun q => long_lived epsilon q y).
Proof.
  intros HX LX LY HD He HN HB Hy.
  assert (LX0 : forall p, In p (hd [] X) -> isnan (pq p) = false).
  { intros p Hp. destruct X as [|x X]; [easy|]. destruct (LX x p (or_introl eq_refl) Hp) as [n Hn]. eapply named_nan; eassumption. }
  assert (HY : Y <> []). { intros ->. destruct Hy as [H|[_ H]]; apply Znth_In in H; destruct H. }
  assert (LY0 : forall p, In p (hd [] Y) -> isnan (pq p) = false).
  { intros p Hp. destruct Y as [|x Y']; [easy|]. destruct (LY x p (or_introl eq_refl) Hp) as [n Hn]. eapply named_nan; eassumption. }
  assert (Hfit : exists ds, filtering_fit homology_dimensions X = Ok ds /\
    match homology_dimensions with
    | Some l => Permutation ds (map fz l) /\ StronglySorted (fun a b => fle a b = true) ds
    | None => increasing ds /\ forall q, In q ds <-> In q (map pq (hd [] X))
    end).
  { destruct homology_dimensions as [l|]; cbn [filtering_fit].
    - exists (py_sorted (map fz l)). split; [reflexivity|]. split; [apply py_sorted_perm|]. apply py_sorted_ss.
      intros z Hz. apply in_map_iff in Hz. destruct Hz as [k [<- _]]. reflexivity.
    - destruct X as [|x X]; [easy|]. exists (np_unique (map pq x)). split; [reflexivity|]. cbn [hd] in *. split; [|intros; apply np_unique_In'].
      apply np_unique_inc. intros q Hq. apply in_map_iff in Hq. destruct Hq as [p [<- Hp]]. auto. }
  destruct Hfit as [ds [Eds Hds]].
  assert (NDs : NoDup ds).
  { destruct homology_dimensions as [l|].
    - eapply Permutation_NoDup; [symmetry; apply Hds|]. apply FinFun.Injective_map_NoDup; [|assumption]. intros a b. apply fz_inj.
    - apply increasing_NoDup, Hds. }
  assert (Nm : forall q, In q ds -> exists n, named q n).
  { intros q Hq. destruct homology_dimensions as [l|].
    - apply (Permutation_in _ (proj1 Hds)) in Hq. apply in_map_iff in Hq. destruct Hq as [k [<- _]]. exists (HName k). right. eauto.
    - apply (proj2 Hds) in Hq. apply in_map_iff in Hq. destruct Hq as [p [<- Hp]]. destruct X as [|x X]; [easy|]. now apply (LX x p (or_introl eq_refl)). }
  destruct (filtering_spec Y ds epsilon HY LY0) as [ns [ms [others [HO1 [HO2 [L1 [L2 [HS EF]]]]]]]].
  { intros q Hq _. now apply HB. }
  assert (FF : Forall2 (fun _ (nm : Z * fl) => exists b : Qc, snd nm = Fin b) ds (combine ns ms)).
  { apply Forall2_of_combine; try assumption. intros i q Hi. destruct (HS i q Hi) as [n [m [A [B [_ P]]]]].
    exists n, m. split; [assumption|]. split; [assumption|]. cbn [snd]. destruct P as [[-> _]|[[x [p [Hx [Hp <-]]]] _]].
    - now exists 0%Qc.
    - apply in_map_iff in Hx. destruct Hx as [x0 [<- Hx0]]. unfold long_lived, rows_of in Hp. apply filter_In in Hp. destruct Hp as [Hp _].
      apply filter_In in Hp. destruct (HD x0 Hx0 p (proj1 Hp)) as [[b ->] _]. eauto. }
  assert (Iy : In y Y) by (destruct Hy as [H|[_ H]]; eapply Znth_In; eassumption).
  set (r := concat (map (fun qnm : fl * (Z * fl) => padded (fst (snd qnm)) (snd (snd qnm)) (fst qnm) (long_lived epsilon (fst qnm) y)) (combine ds (combine ns ms)))
     ++ concat (map (fun q => rows_of q y) others)).
  destruct (figure_of_plot r ds) as [fig [E1 E2]].
  { apply drawable_filtered; [now apply HD|assumption]. }
  { exact Nm. }
  exists ds, fig. split; [|split; [assumption|]].
  - unfold filtering_then_plot. rewrite Eds. cbn [bind]. rewrite EF. cbn [bind]. unfold preprocessor_plot. cbn [bind].
    match goal with |- context [py_get (map ?f Y) sample] => assert (G : py_get (map f Y) sample = Ok r) end.
    { unfold py_get. rewrite zlen_map, Znth_map. destruct Hy as [H|[H0 H]].
      - assert (Hi := Znth_Some_lt _ _ _ H). destruct (Z.ltb_spec sample 0); [lia|]. now rewrite H.
      - destruct (Z.ltb_spec sample 0); [|lia]. rewrite Z.add_comm, H. reflexivity. }
    etransitivity; [refine (f_equal (fun z => bind z _) G)|]. cbn [bind]. exact E1.
  - eapply figure_shows_ext; [|exact E2]. intros q Hq. cbn beta. unfold r. rewrite shown_app.
    destruct (Nm q Hq) as [n Hn]. apply named_nan in Hn.
    rewrite shown_others by (intros C; apply HO2 in C; easy). rewrite app_nil_r.
    rewrite shown_filtered; try assumption; try (now apply HD).
    + assert (T : existsb (fun q' => feq q' q) ds = true) by (apply existsb_exists; exists q; split; [assumption|now apply feq_refl]).
      now rewrite T.
    + eapply Forall2_impl; [|exact FF]. intros a [b c] [d H]. cbn in *. now rewrite H.
Qed.

(** *** Scaler: the plot of a rescaled diagram shows, for each dimension of the first training
    diagram, the off-diagonal points of the diagram given to [transform], with their
    coordinates divided by the scale. *)
Lemma shrunk_ok s p : (0 < s)%Qc -> (exists b, pb p = Fin b) -> (pd p = PInf \/ exists d, pd p = Fin d) ->
  Pt (fdiv (pb p) (Fin s)) (fdiv (pd p) (Fin s)) (pq p) = shrunk s p.
Proof.
  intros Hs [b Hb] Hd. unfold shrunk. rewrite Hb.
  assert (Z : Qceqb s 0 = false).
  { destruct (Qceqb_spec s 0) as [->|]; [|reflexivity]. now apply Qclt_not_eq in Hs. }
  destruct Hd as [->|[d ->]]; cbn [fdiv]; rewrite ?Z; [|reflexivity].
  assert (G : fsign (Fin s) = 1) by (cbn [fsign]; change (0 < s)%Qc with (s > 0)%Qc in Hs; apply Qcgt_alt in Hs; now rewrite Hs).
  rewrite G. reflexivity.
Qed.

Lemma shown_shrunk s q y : (0 < s)%Qc -> drawable y -> shown_rows q (map (shrunk s) y) = map (shrunk s) (shown_rows q y).
Proof.
  intros Hs. induction y as [|p y IH]; intros HD; [reflexivity|]. unfold shown_rows in *. cbn [map filter].
  assert (E : feq (pb (shrunk s p)) (pd (shrunk s p)) = feq (pb p) (pd p)).
  { destruct (HD p (or_introl eq_refl)) as [[b Hb] Hd]. unfold shrunk. cbn [pb pd]. rewrite Hb. destruct Hd as [->|[d ->]]; [reflexivity|].
    cbn [feq]. destruct (Qceqb_spec (b / s) (d / s)) as [E|E], (Qceqb_spec b d) as [E'|E']; try reflexivity.
    - exfalso. apply E'. assert (s <> 0%Qc) by (intros ->; now apply Qclt_not_eq in Hs).
      transitivity (b / s * s)%Qc; [field; assumption|]. rewrite E. field. assumption.
    - now subst. }
  rewrite E. change (pq (shrunk s p)) with (pq p). rewrite IH by (intros p' Hp'; apply HD; now right).
  destruct (feq (pq p) q && negb (feq (pb p) (pd p))); reflexivity.
Qed.

Theorem scaler_plot_shows s X Y sample y :
  X <> [] -> labelled X -> drawable y -> (0 < s)%Qc -> item Y sample y ->
  exists dims fig, scaler_then_plot (Fin s) X Y sample = Ok fig /\
    increasing dims /\ (forall q, In q dims <-> In q (map pq (hd [] X))) /\
    figure_shows fig dims (fun q => map (shrunk s) (shown_rows q y)).
Proof.
  intros HX LX HD Hs Hy. destruct X as [|x X]; [easy|]. cbn [hd].
  assert (LX0 : forall p, In p x -> exists n, named (pq p) n) by (intros p Hp; now apply (LX x p (or_introl eq_refl))).
  assert (I : forall q, In q (np_unique (map pq x)) <-> In q (map pq x)) by (intros; apply np_unique_In').
  set (r := map (fun p => Pt (fdiv (pb p) (Fin s)) (fdiv (pd p) (Fin s)) (pq p)) y).
  assert (Er : r = map (shrunk s) y).
  { apply map_ext_in. intros p Hp. destruct (HD p Hp). now apply shrunk_ok. }
  destruct (figure_of_plot r (np_unique (map pq x))) as [fig [E1 E2]].
  { rewrite Er. intros p Hp. apply in_map_iff in Hp. destruct Hp as [p' [<- Hp]]. destruct (HD p' Hp) as [[b Hb] Hd].
    unfold shrunk. cbn [pb pd]. rewrite Hb. split; [eauto|]. destruct Hd as [->|[d ->]]; eauto. }
  { intros q Hq. apply I in Hq. apply in_map_iff in Hq. destruct Hq as [p [<- Hp]]. auto. }
  exists (np_unique (map pq x)), fig. split; [|split; [|split; [assumption|]]].
  - unfold scaler_then_plot, preprocessor_plot. cbn [first_dims bind].
    assert (G : py_get (scaler_transform (Fin s) Y) sample = Ok r).
    { unfold py_get, scaler_transform. rewrite zlen_map. unfold diagram in *. rewrite Znth_map. destruct Hy as [H|[H0 H]].
      - assert (Hi := Znth_Some_lt _ _ _ H). destruct (Z.ltb_spec sample 0); [lia|]. now rewrite H.
      - destruct (Z.ltb_spec sample 0); [|lia]. rewrite Z.add_comm, H. reflexivity. }
    rewrite G. exact E1.
  - apply np_unique_inc. intros q Hq. apply in_map_iff in Hq. destruct Hq as [p [<- Hp]]. destruct (LX0 p Hp). eapply named_nan; eassumption.
  - eapply figure_shows_ext; [|exact E2]. intros q Hq. cbn beta. rewrite Er. now apply shown_shrunk.
Qed.

(** *** ForgetDimension: one trace, named "Any homology dimension", with every off-diagonal
    point of the diagram. *)
Definition off_diagonal (y : diagram) : diagram := filter (fun p => negb (feq (pb p) (pd p))) y.
Theorem forget_plot_shows Y sample y : drawable y -> item Y sample y ->
  exists fig, forget_then_plot Y sample = Ok fig /\
    figure_shows fig [PInf] (fun _ => map (fun p => Pt (pb p) (pd p) PInf) (off_diagonal y)).
Proof.
  intros HD Hy. set (r := map (fun p => Pt (pb p) (pd p) PInf) y).
  destruct (figure_of_plot r [PInf]) as [fig [E1 E2]].
  { intros p Hp. apply in_map_iff in Hp. destruct Hp as [p' [<- Hp]]. exact (HD p' Hp). }
  { intros q [<-|[]]. exists AnyDimension. now left. }
  exists fig. split.
  - unfold forget_then_plot. assert (G : py_get (forget_dimension Y) sample = Ok r).
    { unfold py_get, forget_dimension. rewrite zlen_map. unfold diagram in *. rewrite Znth_map. destruct Hy as [H|[H0 H]].
      - assert (Hi := Znth_Some_lt _ _ _ H). destruct (Z.ltb_spec sample 0); [lia|]. now rewrite H.
      - destruct (Z.ltb_spec sample 0); [|lia]. rewrite Z.add_comm, H. reflexivity. }
    rewrite G. exact E1.
  - eapply figure_shows_ext; [|exact E2]. intros q [<-|[]]. cbn beta. unfold r. clear.
    induction y as [|p y IH]; [reflexivity|]. unfold shown_rows, off_diagonal in *. cbn [map filter pq pb pd feq andb].
    rewrite IH. destruct (feq (pb p) (pd p)); reflexivity.
Qed.

(** *** A concrete case: the hypotheses hold of two diagrams of two points and the filter keeps
    one point in each. *)
Definition wrap_ex : list diagram :=
  [ [Pt (fz 0) (fz 1) (fz 0); Pt (fz 0) (fz 5) (fz 0)]; [Pt (fz 1) (fz 9) (fz 0); Pt (fz 2) (fz 3) (fz 0)] ].
Example wrap_example :
  labelled wrap_ex /\ (forall x, In x wrap_ex -> drawable x) /\ fle f0 (fz 2) = true /\
  (forall q, In q (map pq (hd [] wrap_ex)) -> balanced q wrap_ex) /\
  item wrap_ex (-1) [Pt (fz 1) (fz 9) (fz 0); Pt (fz 2) (fz 3) (fz 0)] /\
  long_lived (fz 2) (fz 0) [Pt (fz 1) (fz 9) (fz 0); Pt (fz 2) (fz 3) (fz 0)] = [Pt (fz 1) (fz 9) (fz 0)].
Proof.
  split; [|split; [|split; [|split; [|split]]]].
  - intros y p Hy Hp. exists (HName 0). right. exists 0. split; [|reflexivity].
    destruct Hy as [<-|[<-|[]]]; destruct Hp as [<-|[<-|[]]]; reflexivity.
  - intros y Hy p Hp. destruct Hy as [<-|[<-|[]]]; destruct Hp as [<-|[<-|[]]]; cbn [pb pd]; unfold fz; split; eauto.
  - reflexivity.
  - intros q Hq. exists 2. intros x Hx. assert (q = fz 0) as -> by (destruct Hq as [<-|[<-|[]]]; reflexivity).
    destruct Hx as [<-|[<-|[]]]; reflexivity.
  - right. split; [lia|reflexivity].
  - reflexivity.
Qed.

Print Assumptions preprocessor_plot_errors.
Print Assumptions preprocessor_plot_explicit.
Print Assumptions plot_negative_sample.
Print Assumptions filtering_plot_shows.
Print Assumptions scaler_plot_shows.
Print Assumptions forget_plot_shows.
