(** C68, C69: plots of homology transformers and PlotterMixin. *)
From Verif Require Import Np NpFacts Fl FlFacts DiagTypes DiagModel DiagSpec DiagProofs DiagProofs2 DiagProofs3 DiagThms
  VecModel VecSpec HomModel HomSpec HomProofs PlotTypes PlotModel PlotSpec PlotThms.
Open Scope Z_scope.

(** ** transform_plot *)

(** X[i:i+1] is the one-sample slice, except for i = -1, where it is empty. *)
Lemma py_sub_one {A} (X : list A) i x : py_get X i = Ok x -> i <> -1 ->
  py_sub (Some i) (Some (i + 1)) X = [x].
Proof.
  intros Hx Hi. unfold py_get in Hx. set (j := if i <? 0 then i + zlen X else i) in *.
  destruct (Znth X j) as [x'|] eqn:E; [|discriminate]. injection Hx as ->. pose proof (Znth_Some_lt _ _ _ E) as Hj.
  assert (EQ : py_sub (Some i) (Some (i + 1)) X = py_sub (Some j) (Some (j + 1)) X).
  { unfold j in Hj |- *. destruct (Z.ltb_spec i 0) as [N|]; [|reflexivity]. unfold py_sub, py_slice.
    assert (A1 : slice_start 1 (zlen X) (Some i) = slice_start 1 (zlen X) (Some (i + zlen X))).
    { unfold slice_start, clip_index. change (1 <? 0) with false. cbv iota. destruct (Z.ltb_spec i 0), (Z.ltb_spec (i + zlen X) 0); lia. }
    assert (A2 : slice_stop 1 (zlen X) (Some (i + 1)) = slice_stop 1 (zlen X) (Some (i + zlen X + 1))).
    { unfold slice_stop, clip_index. change (1 <? 0) with false. cbv iota. destruct (Z.ltb_spec (i + 1) 0), (Z.ltb_spec (i + zlen X + 1) 0); lia. }
    now rewrite A1, A2. }
  rewrite EQ. destruct (py_sub_spec X j (j + 1)) as [L S]; [lia|lia|]. replace (j + 1 - j) with 1 in * by lia.
  apply Znth_ext; [now rewrite L|]. intros k Hk. rewrite L in Hk. assert (k = 0) by lia. subst k. rewrite S by lia. rewrite Z.add_0_r, E. reflexivity.
Qed.
Lemma py_sub_none {A} (X : list A) i : (forall x, py_get X i <> Ok x) \/ i = -1 ->
  py_sub (Some i) (Some (i + 1)) X = [].
Proof.
  intros H. assert (HC : i < - zlen X \/ zlen X <= i \/ i = -1).
  { destruct H as [H| ->]; [|auto]. destruct (Z_lt_le_dec i (- zlen X)); [auto|]. destruct (Z_lt_le_dec i (zlen X)); [|auto].
    exfalso. unfold py_get in H. destruct (Znth_ex X (if i <? 0 then i + zlen X else i)) as [x E]; [destruct (Z.ltb_spec i 0); lia|].
    rewrite E in H. now apply (H x). }
  pose proof (zlen_nonneg X) as Hn. unfold py_sub, py_slice.
  assert (E : slice_count 1 (slice_start 1 (zlen X) (Some i)) (slice_stop 1 (zlen X) (Some (i + 1))) <= 0).
  { unfold slice_count, slice_start, slice_stop, clip_index. change (1 <? 0) with false. cbv iota.
    destruct (Z.ltb_spec i 0), (Z.ltb_spec (i + 1) 0); try lia;
    match goal with |- context [if ?a <? ?b then _ else _] => destruct (Z.ltb_spec a b); [|lia] end; try lia. }
  unfold arange. unfold tabZ. replace (Z.to_nat (slice_count 1 (slice_start 1 (zlen X) (Some i)) (slice_stop 1 (zlen X) (Some (i + 1))))) with O by lia. reflexivity.
Qed.

(** ** C69: transform_plot transforms and draws exactly the chosen sample... *)
Theorem transform_plot_spec {A B F} (transform : list A -> res (list B)) (plot : B -> res F) X i x :
  py_get X i = Ok x -> i <> -1 ->
  transform_plot transform plot X i =
  do Xt <- transform [x]; do y <- py_get Xt 0; do fig <- plot y; Ok (Xt, fig).
Proof. intros Hx Hi. unfold transform_plot. now rewrite (py_sub_one X i x). Qed.

(** ... so for transformers that treat samples separately it draws what the usual
    two steps draw, and returns the one transformed sample... *)
Theorem transform_plot_sample_wise {A B F} (transform : list A -> res (list B)) (plot : B -> res F) (f : A -> B) X i x fig :
  (forall Y, Y <> [] -> transform Y = Ok (map f Y)) ->
  py_get X i = Ok x -> i <> -1 ->
  (transform_plot transform plot X i = Ok ([f x], fig) <-> plot (f x) = Ok fig) /\
  transform_then_plot transform plot X i = plot (f x).
Proof.
  intros HT Hx Hi. rewrite (transform_plot_spec transform plot X i x Hx Hi), HT by discriminate. cbn [map bind]. change (py_get [f x] 0) with (Ok (f x)). cbn [bind].
  split.
  - destruct (plot (f x)); cbn [bind]; split; congruence.
  - unfold transform_then_plot. rewrite HT; [|intros ->; unfold py_get in Hx; destruct (Znth [] _) eqn:E in Hx; [apply Znth_In in E; destruct E|discriminate]].
    cbn [bind]. unfold py_get in *. rewrite zlen_map, Znth_map. destruct (Znth X _) as [x'|]; [|discriminate]. now injection Hx as ->.
Qed.

(** ... except that the last sample cannot be chosen as -1 (finding): the slice is
    empty.  The same happens, as it should, for positions out of range. *)
Theorem transform_plot_last_refuted {A B F} (transform : list A -> res (list B)) (plot : B -> res F) (X : list A) e :
  transform [] = Err e -> transform_plot transform plot X (-1) = Err e.
Proof. intros H. unfold transform_plot. rewrite py_sub_none by now right. now rewrite H. Qed.
Theorem transform_plot_out_of_range {A B F} (transform : list A -> res (list B)) (plot : B -> res F) (X : list A) i e :
  transform [] = Err e -> ~ - zlen X <= i < zlen X -> transform_plot transform plot X i = Err e.
Proof.
  intros H Hi. unfold transform_plot. rewrite py_sub_none; [now rewrite H|]. left. intros x Hx. unfold py_get in Hx.
  destruct (Znth X _) eqn:E in Hx; [|discriminate]. apply Znth_Some_lt in E. destruct (Z.ltb_spec i 0); lia.
Qed.

(** ** C68: homology.  The figure of a sample does not depend on the batch. *)
Lemma shown_meaningful r q : drawable r -> (forall p, In p r -> flt (pd p) (pb p) = false) ->
  shown_rows q r = meaningful (rows_of q r).
Proof.
  intros HD HP. unfold shown_rows, meaningful, rows_of. rewrite filter_filter. apply filter_ext_in. intros p Hp. f_equal.
  destruct (HD p Hp) as [[b Eb] [Ed|[d Ed]]]; specialize (HP p Hp); rewrite Eb, Ed in *; [reflexivity|]. cbn [feq flt] in *.
  destruct (Qceqb_spec b d), (Qcltb_spec b d), (Qcltb_spec d b); try reflexivity; try discriminate; exfalso.
  - subst. qlra.
  - apply n. apply Qcle_antisym; apply Qcnot_lt_le; assumption.
Qed.

Theorem homology_plot_sample_independent {A} (points : A -> Z -> diagram) dims (X X' : list A) R R' i i' x r r' given :
  is_diagrams_of points dims X R -> is_diagrams_of points dims X' R' ->
  Znth X i = Some x -> Znth X' i' = Some x -> Znth R i = Some r -> Znth R' i' = Some r' ->
  drawable r -> drawable r' -> (forall p, In p r \/ In p r' -> flt (pd p) (pb p) = false) ->
  match given with Some l => forall q, In q l -> exists n, named q n | None => True end ->
  plot_diagram r given = plot_diagram r' given.
Proof.
  intros [_ [H [_ Hne]]] [_ [H' [_ Hne']]] Ex Ex' Er Er' HD HD' HP HG.
  destruct (H i x r Ex Er) as [H1 H2]. destruct (H' i' x r' Ex' Er') as [H1' H2'].
  apply Znth_In in Er, Er'.
  assert (HK : forall y, (forall p, In p y -> exists dim, In dim dims /\ pq p = fz dim) -> (forall dim, In dim dims -> rows_of (fz dim) y <> []) ->
             forall q, In q (map pq y) <-> exists dim, In dim dims /\ q = fz dim).
  { intros y Hy Hy' q. split.
    - intros Hq. apply in_map_iff in Hq. destruct Hq as [p [<- Hp]]. auto.
    - intros [dim [Hd ->]]. specialize (Hy' dim Hd). destruct (rows_of (fz dim) y) as [|p t] eqn:E; [easy|].
      assert (Hp : In p (rows_of (fz dim) y)) by (rewrite E; now left). apply filter_In in Hp. destruct Hp as [Hp Eq]. apply feq_eq in Eq. rewrite <- Eq. now apply in_map. }
  pose proof (HK r H2 (fun d Hd => Hne r d Er Hd)) as K. pose proof (HK r' H2' (fun d Hd => Hne' r' d Er' Hd)) as K'.
  assert (NN : forall q, In q (map pq r) -> isnan q = false) by (intros q Hq; apply K in Hq; destruct Hq as [k [_ ->]]; reflexivity).
  set (ds := match given with Some l => l | None => np_unique (map pq r) end).
  apply (plot_diagram_ignores_padding r r' given ds); try assumption.
  - intros p [Hp|Hp]; [destruct (H2 p Hp) as [k [_ ->]]|destruct (H2' p Hp) as [k [_ ->]]]; discriminate.
  - unfold ds. destruct given; [reflexivity|]. split; [now apply np_unique_inc|]. intros q. now apply np_unique_In.
  - unfold ds. destruct given; [reflexivity|]. split; [now apply np_unique_inc|]. intros q. rewrite np_unique_In by assumption. now rewrite K, K'.
  - unfold ds. destruct given; [assumption|]. intros q Hq. rewrite np_unique_In in Hq by assumption. apply K in Hq. destruct Hq as [k [_ ->]]. exists (HName k). right. eauto.
  - intros q. rewrite !shown_meaningful by (auto; intros; apply HP; auto).
    destruct (rows_of q r) as [|p t] eqn:E.
    + destruct (rows_of q r') as [|p t] eqn:E'; [reflexivity|]. exfalso.
      assert (Hp : In p (rows_of q r')) by (rewrite E'; now left). apply filter_In in Hp. destruct Hp as [Hp Eq]. apply feq_eq in Eq.
      destruct (H2' p Hp) as [k [Hk Ek]]. apply (Hne r k Er Hk). rewrite <- Ek, Eq. exact E.
    + assert (Hp : In p (rows_of q r)) by (rewrite E; now left). apply filter_In in Hp. destruct Hp as [Hp Eq]. apply feq_eq in Eq.
      destruct (H2 p Hp) as [k [Hk Ek]]. rewrite <- E, <- Eq, Ek. now rewrite H1, H1'.
Qed.

(** What the homology transformers return can be drawn. *)
Lemma nontrivial_drawable red iv d dim p : (exists v, iv = Fin v) \/ iv = PInf ->
  In p (nontrivial_rows red iv d dim) -> (exists b, pb p = Fin b) /\ (pd p = PInf \/ exists e, pd p = Fin e).
Proof.
  intros Hiv Hp. unfold nontrivial_rows in Hp. apply filter_In in Hp. destruct Hp as [Hp Hlt]. apply in_map_iff in Hp. destruct Hp as [[b e] [<- _]].
  cbn [pb pd fst snd] in *. unfold finite_value in *. split.
  - destruct b; try (eexists; reflexivity). destruct Hiv as [[v ->]| -> ]; [eexists; reflexivity|]. destruct e; discriminate.
  - destruct e; try (right; eexists; reflexivity). destruct Hiv as [[v ->]| -> ]; [right; eexists; reflexivity|now left].
Qed.
Theorem homology_diagrams_drawable junk Xt0 dims iv red R :
  (exists v, iv = Fin v) \/ iv = PInf ->
  Xt0 <> [] -> (forall d dim, In d Xt0 -> In dim dims -> has_dimension d dim) ->
  postprocess_diagrams junk Xt0 dims iv red = Ok R ->
  forall r, In r R -> drawable r /\ forall p, In p r -> flt (pd p) (pb p) = false.
Proof.
  intros Hiv Hne HH ER. destruct (postprocess_preserves_points junk Xt0 dims iv red Hne HH) as [ns [ms [L1 [L2 [HN E]]]]].
  rewrite ER in E. injection E as ->. intros r Hr. apply in_map_iff in Hr. destruct Hr as [d [<- Hd]].
  assert (HP : forall p, In p (concat (map (fun qnm : Z * (Z * fl) => padded (fst (snd qnm)) (snd (snd qnm)) (fz (fst qnm)) (nontrivial_rows red iv d (fst qnm))) (combine dims (combine ns ms)))) ->
    ((exists b, pb p = Fin b) /\ (pd p = PInf \/ exists e, pd p = Fin e)) /\ flt (pd p) (pb p) = false).
  { intros p Hp. apply in_concat in Hp. destruct Hp as [blk [Hb Hp]]. apply in_map_iff in Hb. destruct Hb as [[dim [n m]] [<- Hq]]. cbn [fst snd] in Hp.
    apply In_Znth in Hq. destruct Hq as [k [_ Hq]].
    assert (K : Znth dims k = Some dim /\ Znth ns k = Some n /\ Znth ms k = Some m).
    { clear - Hq L1 L2. revert ns ms L1 L2 k Hq. induction dims as [|a l IH]; intros [|b ns] [|c ms] L1 L2 k Hq; rewrite ?zlen_cons, ?zlen_nil in *; try (pose proof (zlen_nonneg ns); lia);
        try (pose proof (zlen_nonneg l); lia); try (pose proof (zlen_nonneg ms); lia).
      - apply Znth_In in Hq. destruct Hq.
      - cbn [combine] in Hq. destruct (Z.eq_dec k 0) as [->|].
        + rewrite Znth_0 in Hq. injection Hq as -> -> ->. now rewrite !Znth_0.
        + pose proof (Znth_Some_lt _ _ _ Hq). rewrite Znth_cons in Hq by lia. rewrite !Znth_cons by lia. apply IH; [lia|lia|assumption]. }
    destruct K as [K1 [K2 K3]]. destruct (HN k dim K1) as [n' [m' [N1 [N2 [SC PV]]]]].
    assert (n' = n) by congruence. assert (m' = m) by congruence. subst n' m'.
    unfold padded, diag_rows in Hp. apply in_app_or in Hp. destruct Hp as [Hp|Hp].
    - split; [eapply nontrivial_drawable; eassumption|]. apply nontrivial_rows_pq in Hp. now apply flt_asym.
    - apply repeat_spec in Hp. subst p. cbn [pb pd]. split; [|apply flt_irrefl].
      assert (Hm : exists v, m = Fin v).
      { destruct PV as [[-> _]|[[x [p [Hx [Hp <-]]]] _]]; [eexists; reflexivity|]. apply in_map_iff in Hx. destruct Hx as [d' [<- _]].
        now apply (nontrivial_drawable red iv d' dim p Hiv) in Hp. }
      destruct Hm as [v ->]. split; [eauto|right; eauto]. }
  split; [intros p Hp; now apply HP|intros p Hp; now apply HP].
Qed.

(** So transform_plot of a fitted homology transformer draws sample i as plot
    draws it among all the transformed samples (i <> -1). *)
Theorem homology_transform_plot {A} (junk : pt) (dg : A -> backend) f red (X : list A) i x given :
  (exists v, f_inf f = Fin v) \/ f_inf f = PInf ->
  f_dims f <> [] -> NoDup (f_dims f) ->
  (forall x dim, In x X -> In dim (f_dims f) -> has_dimension (dg x) dim) ->
  match given with Some l => forall q, In q l -> exists n, named q n | None => True end ->
  py_get X i = Ok x -> i <> -1 ->
  exists Xt fig, transform_plot (hom_transform junk dg f red) (fun r => plot_diagram r given) X i = Ok (Xt, fig) /\
    hom_transform junk dg f red [x] = Ok Xt /\
    transform_then_plot (hom_transform junk dg f red) (fun r => plot_diagram r given) X i = Ok fig.
Proof.
  intros Hinf Hd HND HH HG Hx Hi. set (j := if i <? 0 then i + zlen X else i).
  assert (Ej : Znth X j = Some x) by (unfold py_get in Hx; fold j in Hx; destruct (Znth X j); [congruence|discriminate]).
  assert (Ix : In x X) by now apply Znth_In in Ej.
  assert (HX : X <> []) by (intros ->; destruct Ix).
  destruct (transform_ok junk dg f red X HX Hd HND HH) as [R [ER HR]].
  destruct (transform_ok junk dg f red [x] ltac:(discriminate) Hd HND) as [R1 [ER1 HR1]]; [intros y dim [<-|[]]; auto|].
  assert (LR : zlen R = zlen X) by apply HR. assert (LR1 : zlen R1 = 1) by apply HR1.
  pose proof (Znth_Some_lt _ _ _ Ej) as Bj.
  destruct (Znth_ex R j ltac:(lia)) as [r Er]. destruct (Znth_ex R1 0 ltac:(lia)) as [r1 Er1].
  unfold hom_transform in ER, ER1.
  assert (D : drawable r /\ forall p, In p r -> flt (pd p) (pb p) = false).
  { eapply homology_diagrams_drawable; [exact Hinf| | |exact ER|now apply Znth_In in Er]; [destruct X; easy|].
    intros d dim Hd' Hdim. apply in_map_iff in Hd'. destruct Hd' as [y [<- Hy]]. auto. }
  assert (D1 : drawable r1 /\ forall p, In p r1 -> flt (pd p) (pb p) = false).
  { eapply homology_diagrams_drawable; [exact Hinf| | |exact ER1|now apply Znth_In in Er1]; [easy|].
    intros d dim Hd' Hdim. apply in_map_iff in Hd'. destruct Hd' as [y [<- [<-|[]]]]. auto. }
  assert (EP : plot_diagram r given = plot_diagram r1 given).
  { refine (homology_plot_sample_independent _ _ X [x] R R1 j 0 x r r1 given HR HR1 Ej eq_refl Er Er1 (proj1 D) (proj1 D1) _ HG). intros p [Hp|Hp]; [now apply D|now apply D1]. }
  assert (EF : exists fig, plot_diagram r given = Ok fig).
  { destruct HR as [_ [HRp _]]. destruct (HRp j x r Ej Er) as [_ HRq].
    assert (NN : forall q, In q (map pq r) -> isnan q = false) by (intros q Hq; apply in_map_iff in Hq; destruct Hq as [p [<- Hp]]; destruct (HRq p Hp) as [k [_ ->]]; reflexivity).
    destruct (plot_diagram_spec r given (match given with Some l => l | None => np_unique (map pq r) end)) as [lo [hi [_ [_ [mg [ms [_ [_ [_ [la [_ [_ E]]]]]]]]]]]].
    - apply drawable_plottable, D.
    - destruct given; [reflexivity|]. split; [now apply np_unique_inc|]. intros q. now apply np_unique_In.
    - destruct given; [assumption|]. intros q Hq. rewrite np_unique_In in Hq by assumption. apply in_map_iff in Hq. destruct Hq as [p [<- Hp]].
      destruct (HRq p Hp) as [k [_ ->]]. exists (HName k). right. eauto.
    - rewrite E. eauto. }
  destruct EF as [fig EF]. exists R1, fig. rewrite (transform_plot_spec _ _ X i x Hx Hi). split; [|split; [exact ER1|]].
  - change (hom_transform junk dg f red [x]) with (postprocess_diagrams junk (map dg [x]) (f_dims f) (f_inf f) red). rewrite ER1. cbn [bind].
    rewrite (py_get_in R1 0 r1) by (lia || assumption). cbn [bind]. now rewrite <- EP, EF.
  - unfold transform_then_plot. change (hom_transform junk dg f red X) with (postprocess_diagrams junk (map dg X) (f_dims f) (f_inf f) red). rewrite ER. cbn [bind].
    unfold py_get. rewrite LR. fold j. rewrite Er. cbn [bind]. exact EF.
Qed.
