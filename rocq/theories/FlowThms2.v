(** C77: a time series pipeline end to end. *)
From Coq Require Import Reals String Lra Permutation Sorting.Sorted.
From Verif Require Import Np NpFacts Fl FlFacts DiagTypes DiagModel DiagSpec DiagProofs DiagProofs2 DiagProofs3 DiagThms
  VecModel VecSpec RNp MetricSpec FeatModel FeatSpec FeatThms HomModel HomSpec HomProofs TSModel TSSpec TSThms
  PipeModel PipeSpec PipeProofs PipeThms FlowModel FlowSpec FlowThms.
Open Scope Z_scope.

(** ** Features *)
Lemma off_idem x : off_diagonal (off_diagonal x) = off_diagonal x.
Proof.
  unfold off_diagonal. induction x as [|p x IH]; [reflexivity|]. cbn [filter].
  destruct (negb (Qceqb (fst p) (snd p))) eqn:E; [cbn [filter]; rewrite E; now f_equal|exact IH].
Qed.
Lemma entropy_value_off nm fill x v : is_entropy_value nm fill x v <-> is_entropy_value nm fill (off_diagonal x) v.
Proof. unfold is_entropy_value, lifetimes. now rewrite off_idem. Qed.
Lemma feature_value_unique k x v v' : off_diagonal x = x -> feature_value k x v -> feature_value k x v' -> v = v'.
Proof.
  intro E. destruct k as [nm fill|]; cbn [feature_value]; [|congruence]. intros (A1 & A2 & A3 & A4) (B1 & B2 & B3 & B4).
  destruct x as [|p x'] eqn:EX; [rewrite A1, B1; auto|]. rewrite <- EX in *. assert (N : off_diagonal x <> []) by (rewrite E, EX; easy).
  destruct nm; [|now rewrite A2, B2 by auto].
  destruct (Req_EM_T (total (lifetimes x)) 1) as [L|L]; [|now rewrite A3, B3 by auto].
  destruct (A4 N eq_refl L) as [C1 C2]. destruct (B4 N eq_refl L) as [D1 D2].
  destruct (Z.eq_dec (zlen (off_diagonal x)) 1); [now rewrite C1, D1 by auto|now rewrite C2, D2 by auto].
Qed.

Section Flow.
Context {A B : Type}.
Variable junk : pt.
Variable ripser : Z -> fl -> list (list A) -> list (list (fl * fl)).
Notation flow := (@flow A B junk ripser).
Notation est_transform := (est_transform junk ripser).

Lemma feature_ok k n_jobs X Y sorted : 1 <= n_jobs -> trainable X -> transformable (map pq (hd [] X)) Y ->
  dimensions_of X (map fz sorted) ->
  exists V, est_transform (EFeature k n_jobs (Some X)) (Diagrams Y) = Ok (Table V) /\
    Forall2 (fun y row => Forall2 (fun dim v => points_of (fz dim) y <> [] ->
       feature_value k (off_diagonal (points_of (fz dim) y)) v) sorted row) Y V.
Proof.
  intros J T TY [DI DQ]. destruct k as [nm fill|].
  - destruct (persistence_entropy_spec nm fill X T) as (dims & [DI' DQ'] & H). destruct (H n_jobs Y J TY) as (V & E & F).
    assert (dims = map fz sorted) as ->. { apply increasing_unique; auto. intro q. now rewrite DQ, DQ'. }
    exists V. cbn [FlowModel.est_transform]. rewrite E. cbn [bind]. split; [reflexivity|].
    clear - F. induction F as [|y row Y V H F IH]; constructor; auto. clear - H.
    remember (map fz sorted) as l eqn:El. revert sorted El. induction H as [|q v l row [H _] _ IH]; intros [|d sorted] El; cbn in El; try easy; constructor.
    + injection El as -> ->. intro N. cbn [feature_value]. now apply (proj1 (entropy_value_off _ _ _ _)), H.
    + injection El as -> ->. now apply IH.
  - destruct (number_of_points_spec X T) as (dims & [DI' DQ'] & H). pose proof (H n_jobs Y J TY) as E.
    assert (dims = map fz sorted) as ->. { apply increasing_unique; auto. intro q. now rewrite DQ, DQ'. }
    cbn [FlowModel.est_transform]. rewrite E. cbn [bind]. eexists. split; [reflexivity|]. clear.
    induction Y as [|y Y IH]; cbn [map]; constructor; auto. clear. rewrite !map_map. induction sorted as [|d s IH]; cbn [map]; constructor; auto.
    intros _. reflexivity.
Qed.

(** The estimators satisfy the laws assumed of estimators in pipelines (C53). *)
Theorem flow_lawful : lawful flow.
Proof.
  split.
  - intros o x y p o' a H. cbn in H. destruct p; [|easy]. cbn in H.
    destruct o, x; cbn in H; try easy; repeat (match goal with H : (if ?c then _ else _) = _ |- _ => destruct c; try easy end).
    + injection H as <-. reflexivity.
    + injection H as <-. reflexivity.
    + apply bind_iff in H as (f & _ & H). injection H as <-. reflexivity.
    + injection H as <-. reflexivity.
  - intros o a. destruct o; reflexivity.
  - intros o _. split; reflexivity.
  - intros o _. reflexivity.
  - intros o. destruct o; reflexivity.
  - intros o x y p _. reflexivity.
  - intros o x y p _. reflexivity.
  - intros o x y x' y' Ho H. cbn [transform_resample FlowModel.flow] in H. apply bind_iff in H as (x1 & H1 & H). apply bind_iff in H as (y1 & H2 & H).
    injection H as <- <-. split; [exact H1|]. destruct o as [a b [|]| | |]; cbn in H2; try easy. injection H2 as <-. easy.
Qed.

Variables (size stride t d s : Z) (elv : bool) (dims : list Z) (max_edge : fl) (inf : option fl) (reduced : bool) (k : scalar_feature) (n_jobs : Z).
Variables (hi : Z) (sorted : list Z).
Hypothesis Hsize : 2 <= size.
Hypothesis Hstride : 1 <= stride.
Hypothesis Ht : 1 <= t.
Hypothesis Hd : 1 <= d.
Hypothesis Hs : 1 <= s.
Hypothesis Hroom : t * (d - 1) + 1 <= size.
Hypothesis HN : NoDup dims.
Hypothesis H0 : forall q, In q dims -> 0 <= q.
Hypothesis Hhi : greatest dims hi.
Hypothesis Hsorted : sorted_dimensions dims sorted.
Hypothesis HJ : 1 <= n_jobs.
Hypothesis Hr : forall c, ripser_answers ripser hi max_edge (value_for max_edge inf) reduced dims c.

Notation flow_result := (FlowSpec.flow_result ripser size stride t d s elv max_edge (value_for max_edge inf) reduced k hi sorted).
Notation window_row := (FlowSpec.window_row ripser t d s elv max_edge (value_for max_edge inf) reduced k hi sorted).

Lemma windows_ok (X : list A) : size <= zlen X -> exists W, sw_transform size stride X = Ok W /\ zlen W = (zlen X - size) / stride + 1 /\ W <> [] /\
  (forall w, In w W -> zlen w = size) /\
  forall i, 0 <= i < zlen W -> exists w, Znth W i = Some w /\ is_run X ((zlen X - size) mod stride + i * stride) size w.
Proof.
  intro L. destruct (sliding_window_transform_spec A X size stride ltac:(lia) Hstride) as [_ H]. destruct (H L) as (W & E & LW & K).
  exists W. split; auto. split; auto. assert (1 <= zlen W) by (rewrite LW; pose proof (Z.div_pos (zlen X - size) stride); lia).
  split; [intros ->; cbn in *; lia|]. split.
  - intros w I. apply In_Znth in I as (i & Bi & Hi). destruct (K i Bi) as (w' & Hw & [Lw _] & _). congruence.
  - intros i Bi. destruct (K i Bi) as (w' & Hw & R & _). eauto.
Qed.
Lemma clouds_ok (W : list (list A)) : (forall w, In w W -> zlen w = size) -> exists C, takens_transform t d s elv W = Ok C /\ zlen C = zlen W /\
  forall i w c, Znth W i = Some w -> Znth C i = Some c -> is_embedding w t d s elv c.
Proof.
  intro L. assert (E : exists C, takens_transform t d s elv W = Ok C).
  { unfold takens_transform. induction W as [|w W IH]; cbn [mapM]; eauto.
    destruct (takens_embedding_spec A w t d s elv Ht Hd Hs) as [_ K]. destruct K as (c & -> & _); [rewrite (L w) by (now left); lia|].
    cbn [bind]. destruct IH as [C ->]; [intros; apply L; now right|]. cbn. eauto. }
  destruct E as [C E]. exists C. split; auto. destruct (takens_collection_spec A W t d s elv C E) as [LC K]. split; auto.
  intros i w c Hw Hc. specialize (K i w c Hw Hc). destruct (takens_embedding_spec A w t d s elv Ht Hd Hs) as [_ Q].
  destruct Q as (c' & E' & Lc & Q); [rewrite (L w) by (eapply Znth_In; eauto); lia|]. assert (c' = c) as -> by congruence.
  split; auto. intros j Bj. destruct (Q j Bj) as (v & Hv & D & _). eauto.
Qed.

Notation p_window st := (EWindow size stride st).
Notation p_takens st := (ETakens t d s elv st).
Notation p_vr st := (EVR dims max_edge inf reduced st).
Notation p_feat st := (EFeature k n_jobs st).

(** Fitted steps, applied to any series at least as long as a window. *)
Lemma passes_ok f X0 (X : list A) (y : list B) : hom_fit dims max_edge inf = Ok f -> trainable X0 ->
  (forall q, In q (map pq (hd [] X0)) <-> exists dim, In dim dims /\ q = fz dim) ->
  size <= zlen X -> zlen y = zlen X ->
  exists F yr, passes flow [p_window true; p_takens true; p_vr (Some f); p_feat (Some X0)] (Series X) (Some y) (Table F) (Some yr) /\
    flow_result X y F yr.
Proof.
  intros Ef T Q0 L Ly. destruct (windows_ok X L) as (W & EW & LW & NW & SW & KW).
  destruct (sliding_window_alignment A B X y size stride ltac:(lia) Hstride Ly) as [_ AL].
  destruct (AL L) as (W' & yr & ER & _ & _ & [AL1 AL2] & _).
  assert (EY : W' = W /\ yr = sw_resample size stride y).
  { unfold sw_transform_resample, TSModel.transform_resample in ER. rewrite EW in ER. cbn [bind] in ER. injection ER as <- <-. auto. }
  destruct EY as [-> ->]. specialize (AL2 Hsize) as [LY KY].
  destruct (clouds_ok W SW) as (C & EC & LC & KC).
  assert (NC : C <> []) by (intros ->; destruct W; [easy|]; rewrite zlen_cons in LC; pose proof (zlen_nonneg W); cbn in LC; lia).
  destruct (collection junk ripser dims max_edge inf reduced hi HN H0 Hhi Hr f C Ef NC) as (R & EV & LR & NR & HR & FR & BR & QR & KR).
  destruct (feature_ok k n_jobs X0 R sorted HJ T) as (V & EF & FV).
  { split; auto. }
  { split; [now apply (sorted_increasing dims)|]. intro q. rewrite Q0, in_map_iff. split.
    - intros (z & <- & I). exists z. split; auto. now apply Hsorted.
    - intros (z & I & ->). exists z. split; auto. now apply Hsorted. }
  exists V, (sw_resample size stride y). split.
  { econstructor; [cbn; unfold moves; cbn; unfold est_transform_resample; cbn; rewrite EW; reflexivity|].
    econstructor; [unfold moves; cbn; rewrite EC; split; [reflexivity|split; reflexivity]|].
    econstructor; [unfold moves; cbn [has FlowModel.flow est_has transform FlowModel.est_transform]; rewrite EV; split; [reflexivity|split; reflexivity]|].
    econstructor; [unfold moves; cbn [has FlowModel.flow est_has transform]; split; [reflexivity|]; split; [exact EF|reflexivity]|]. constructor. }
  unfold FlowSpec.flow_result. pose proof (Forall2_zlen _ _ _ FV) as LV. split; [lia|]. split; [lia|]. intros i Bi. split; [apply KY; lia|].
  destruct (KW i ltac:(lia)) as (w & Hw & Rw). destruct (Znth_ex C i) as [c Hc]; [lia|]. destruct (Znth_ex R i) as [r Hri]; [lia|].
  destruct (Znth_ex V i) as [row Hrow]; [lia|]. exists w, row. split; auto. split; auto. exists c. split; [eauto|].
  pose proof (Forall2_Znth _ _ _ _ _ _ FV Hri Hrow) as K. assert (KQ : forall dim, In dim sorted -> In dim dims) by (intro; apply Hsorted).
  clear - K KQ KR Hc Hri. induction K as [|dim v l row H K IH]; constructor; [|apply IH; intros; apply KQ; now right].
  destruct (KR i c r dim Hc Hri) as [N E]; [apply KQ; now left|]. rewrite <- E. auto.
Qed.

(** A pipeline of the four, fitted on any series with labels, transforms any series with labels, at
    least as long as a window: one row and one label for each window, the label of the window's
    last time, the features of the window alone. *)
Theorem time_series_pipeline_spec caching n1 n2 n3 n4 b1 b2 s3 s4 (X : list A) (y : list B) :
  let steps := [(n1, SObj (p_window b1)); (n2, SObj (p_takens b2)); (n3, SObj (p_vr s3)); (n4, SObj (p_feat s4))] in
  well_formed flow steps -> size <= zlen X -> zlen y = zlen X ->
  exists steps', pipe_fit flow caching steps (Series X) (Some y) [] = Ok steps' /\
    forall X' y', size <= zlen X' -> zlen y' = zlen X' ->
      exists F yr, pipe_transform_resample flow steps' (Series X') (Some y') = Ok (Table F, Some yr) /\
        pipe_transform flow steps' (Series X') = Ok (Table F) /\ flow_result X' y' F yr.
Proof.
  intros steps WF L Ly.
  destruct (windows_ok X L) as (W & EW & LW & NW & SW & KW). destruct (clouds_ok W SW) as (C & EC & LC & KC).
  assert (NC : C <> []) by (intros ->; destruct W; [easy|]; rewrite zlen_cons in LC; pose proof (zlen_nonneg W); cbn in LC; lia).
  assert (Hne : dims <> []) by (intros ->; destruct Hhi as [[] _]).
  destruct (fit_transform_ok junk (fun f x => ByDimension (ripser (f_max f) max_edge x)) dims max_edge inf reduced C NC Hne HN) as [lo [hi' [f [_ [_ [Ef _]]]]]].
  destruct (collection junk ripser dims max_edge inf reduced hi HN H0 Hhi Hr f C Ef NC) as (R & EV & LR & NR & HR & FR & BR & QR & KR).
  assert (TR : trainable R). { split; auto. split; auto. intros q I. apply QR in I as (dim & _ & ->). split; [reflexivity|auto]. }
  exists [(n1, SObj (p_window true)); (n2, SObj (p_takens true)); (n3, SObj (p_vr (Some f))); (n4, SObj (p_feat (Some R)))].
  assert (FIT : pipe_fit flow caching steps (Series X) (Some y) [] = Ok [(n1, SObj (p_window true)); (n2, SObj (p_takens true)); (n3, SObj (p_vr (Some f))); (n4, SObj (p_feat (Some R)))]).
  { change steps with ([(n1, SObj (p_window b1)); (n2, SObj (p_takens b2)); (n3, SObj (p_vr s3))] ++ [(n4, SObj (p_feat s4))])%list.
    apply (pipe_fit_spec flow flow_lawful). split; [exact WF|]. split; [intros ? ? []|].
    exists [(n1, SObj (p_window true)); (n2, SObj (p_takens true)); (n3, SObj (p_vr (Some f)))], (SObj (p_feat (Some R))), (Diagrams R), (Some (sw_resample size stride y)).
    split; [reflexivity|]. split; [|exists [], (p_feat (Some R)); split; [constructor|]; split; reflexivity].
    assert (B1 : 1 <=? size = true) by lia. assert (B2 : 1 <=? stride = true) by lia.
    assert (B3 : 1 <=? t = true) by lia. assert (B4 : 1 <=? d = true) by lia. assert (B5 : 1 <=? s = true) by lia.
    econstructor; [constructor| | |].
    { destruct caching; cbn; rewrite B1, B2; reflexivity. }
    { cbn. unfold moves. cbn. unfold est_transform_resample. cbn. rewrite EW. reflexivity. }
    econstructor; [constructor| | |].
    { destruct caching; cbn; rewrite B3, B4, B5; reflexivity. }
    { cbn. unfold moves. cbn. rewrite EC. split; [reflexivity|split; reflexivity]. }
    econstructor; [constructor| | |].
    { destruct caching; cbn; rewrite Ef; reflexivity. }
    { unfold fit_moves, moves; cbn [has FlowModel.flow est_has transform FlowModel.est_transform]. rewrite EV. split; [reflexivity|split; reflexivity]. }
    constructor. }
  split; [exact FIT|]. intros X' y' L' Ly'. destruct (passes_ok f R X' y' Ef TR QR L' Ly') as (F & yr & P & FR').
  exists F, yr.
  assert (ES : estimators [(n1, SObj (p_window true)); (n2, SObj (p_takens true)); (n3, SObj (p_vr (Some f))); (n4, SObj (p_feat (Some R)))] [p_window true; p_takens true; p_vr (Some f); p_feat (Some R)]).
  { repeat constructor. }
  split; [apply (pipe_transform_resample_spec flow _ _ _ _ _ _ ES); split; [easy|exact P]|]. split; [|exact FR'].
  apply (pipe_transform_spec flow _ _ _ _ ES). split; [easy|].
  inversion P as [|? ? ? ? ? ? ? ? M1 P1]; subst. inversion P1 as [|? ? ? ? ? ? ? ? M2 P2]; subst.
  inversion P2 as [|? ? ? ? ? ? ? ? M3 P3]; subst. inversion P3 as [|? ? ? ? ? ? ? ? M4 P4]; subst. inversion P4; subst.
  unfold moves in *. cbn [has FlowModel.flow est_has] in M1, M2, M3, M4.
  apply (law_tr flow flow_lawful) in M1 as [M1 _]; [|reflexivity].
  econstructor; [reflexivity|exact M1|]. econstructor; [reflexivity|apply M2|]. econstructor; [reflexivity|apply M3|].
  econstructor; [reflexivity|apply M4|]. constructor.
Qed.

(** fit_transform_resample gives the same for the training series. *)
Theorem time_series_fit_transform_resample caching n1 n2 n3 n4 b1 b2 s3 s4 (X : list A) (y : list B) :
  let steps := [(n1, SObj (p_window b1)); (n2, SObj (p_takens b2)); (n3, SObj (p_vr s3)); (n4, SObj (p_feat s4))] in
  well_formed flow steps -> size <= zlen X -> zlen y = zlen X ->
  exists F yr steps', pipe_fit_transform_resample flow caching steps (Series X) (Some y) [] = Ok (steps', Some (Table F, Some yr)) /\
    pipe_fit flow caching steps (Series X) (Some y) [] = Ok steps' /\ flow_result X y F yr.
Proof.
  intros steps WF L Ly. destruct (time_series_pipeline_spec caching n1 n2 n3 n4 b1 b2 s3 s4 X y WF L Ly) as (steps' & FIT & K).
  destruct (K X y L Ly) as (F & yr & E & _ & FR). exists F, yr, steps'. split; [|auto].
  change steps with ([(n1, SObj (p_window b1)); (n2, SObj (p_takens b2)); (n3, SObj (p_vr s3))] ++ [(n4, SObj (p_feat s4))])%list.
  apply (fit_transform_resample_consistent flow flow_lawful); [|split; [exact FIT|exact E]].
  intros o Eo. injection Eo as <-. right. split; reflexivity.
Qed.

(** What goes wrong: the pipeline has no resample, for its last step has none; it must be fitted
    before; series shorter than a window are refused; without labels, transform_resample is. *)
Theorem time_series_pipeline_errors caching n1 n2 n3 n4 b1 b2 s3 s4 (X : list A) (y : option (list B)) :
  let steps := [(n1, SObj (p_window b1)); (n2, SObj (p_takens b2)); (n3, SObj (p_vr s3)); (n4, SObj (p_feat s4))] in
  (forall x, pipe_resample flow steps x y = Err AttributeError) /\
  (b1 = false -> pipe_transform flow steps (Series X) = Err NotFittedError /\
     pipe_transform_resample flow steps (Series X) y = Err NotFittedError) /\
  (b1 = true -> zlen X < size -> pipe_transform flow steps (Series X) = Err ValueError /\
     pipe_transform_resample flow steps (Series X) y = Err ValueError) /\
  (b1 = true -> y = None -> pipe_transform_resample flow steps (Series X) y = Err ValueError) /\
  (well_formed flow steps -> zlen X < size -> pipe_fit flow caching steps (Series X) y [] = Err ValueError).
Proof.
  intros steps. destruct (sliding_window_transform_spec A X size stride ltac:(lia) Hstride) as [SH LG].
  split; [reflexivity|]. split; [intros ->; split; reflexivity|]. split.
  { intros -> L. unfold steps, pipe_transform, pipe_transform_resample. cbn. unfold est_transform_resample. cbn. rewrite (SH L). split; reflexivity. }
  split.
  { intros -> ->. unfold steps, pipe_transform_resample. cbn. unfold est_transform_resample. cbn.
    destruct (Z_lt_le_dec (zlen X) size) as [L|L]; [now rewrite (SH L)|]. destruct (LG L) as (W & -> & _). reflexivity. }
  intros WF L. apply (validate_iff flow) in WF. unfold pipe_fit, fit_steps. rewrite WF. cbn [bind split_params].
  unfold steps at 2. cbn [removelast fit_loop].
  assert (B1 : 1 <=? size = true) by lia. assert (B2 : 1 <=? stride = true) by lia.
  assert (P : @params_of unit n1 (empty_params steps) = Ok []).
  { unfold params_of, empty_params, steps. cbn. now rewrite String.eqb_refl. }
  destruct caching, y; cbn [clone FlowModel.flow est_clone has est_has orb]; rewrite P; cbn; rewrite B1, B2; cbn; unfold est_transform_resample; cbn; rewrite (SH L); reflexivity.
Qed.
Definition same_but_target (r r' : res (list (string * step est) * (data A * option (list B)))) : Prop :=
  match r, r' with
  | Ok (l, (x, _)), Ok (l', (x', _)) => l' = l /\ x' = x
  | Err e, Err e' => e' = e
  | _, _ => False
  end.
Lemma loop_target caching ps l : (forall n o, In (n, SObj o) l -> est_has o Resample = false) -> forall x y y',
  same_but_target (fit_loop flow caching ps l x y) (fit_loop flow caching ps l x y').
Proof.
  induction l as [|[n s0] l IH]; intros H x y y'; [cbn; auto|].
  assert (IH' : forall x y y', same_but_target (fit_loop flow caching ps l x y) (fit_loop flow caching ps l x y')).
  { apply IH. intros m o I. eapply H. right. eauto. }
  cbn [fit_loop]. destruct s0 as [| |o].
  1,2: specialize (IH' x y y'); destruct (fit_loop flow caching ps l x y) as [[? [? ?]]|], (fit_loop flow caching ps l x y') as [[? [? ?]]|]; cbn in *; intuition congruence.
  assert (E : has flow (if caching then clone flow o else o) Resample || has flow (if caching then clone flow o else o) FitTransformResample = false).
  { specialize (H n o (or_introl eq_refl)). destruct caching, o; cbn in *; congruence. }
  rewrite E. destruct (params_of n ps) as [p|]; cbn [bind]; [|reflexivity].
  change (fit_transform_one flow (if caching then clone flow o else o) x y' p) with (fit_transform_one flow (if caching then clone flow o else o) x y p).
  destruct (fit_transform_one flow (if caching then clone flow o else o) x y p) as [[x1 o1]|]; cbn [bind fst snd]; [|reflexivity].
  specialize (IH' x1 y y'). destruct (fit_loop flow caching ps l x1 y) as [[? [? ?]]|], (fit_loop flow caching ps l x1 y') as [[? [? ?]]|]; cbn in *; intuition congruence.
Qed.
(** Fitting needs no labels: they do not matter for what is learnt. *)
Theorem time_series_fit_labels caching n1 n2 n3 n4 b1 b2 s3 s4 (X : list A) (y : list B) :
  let steps := [(n1, SObj (p_window b1)); (n2, SObj (p_takens b2)); (n3, SObj (p_vr s3)); (n4, SObj (p_feat s4))] in
  pipe_fit flow caching steps (Series X) (Some y) [] = pipe_fit flow caching steps (Series X) None [].
Proof.
  intros steps. unfold pipe_fit, fit_steps. destruct (validate_steps flow steps) as [[]|e]; [|reflexivity]. cbn [bind split_params].
  assert (S : same_but_target (fit_loop flow caching (empty_params steps) (removelast steps) (Series X) (Some y)) (fit_loop flow caching (empty_params steps) (removelast steps) (Series X) None)).
  { change (removelast steps) with ((n1, @SObj est (p_window b1)) :: [(n2, SObj (p_takens b2)); (n3, SObj (p_vr s3))])%list.
    remember [(n2, SObj (p_takens b2)); (n3, SObj (p_vr s3))] as l eqn:El. cbn [fit_loop].
    assert (NR : forall n o, In (n, SObj o) l -> est_has o Resample = false). { subst l. intros n o [E|[E|[]]]; injection E as _ <-; reflexivity. }
    generalize (empty_params (V := unit) steps). intro ps.
    destruct (params_of n1 ps) as [p|e]; [|now destruct caching].
    assert (K : forall o, est_has o Resample = true -> same_but_target
       (do r <- (do p0 <- Ok p; fit_transform_resample_one flow o (Series X) (Some y) p0);
        let '(x', y', fitted) := r in do rest <- fit_loop flow caching ps l x' y'; Ok ((n1, SObj fitted) :: fst rest, snd rest))%list
       (do r <- (do p0 <- Ok p; do r <- fit_transform_one flow o (Series X) None p0; Ok (fst r, @None (list B), snd r));
        let '(x', y', fitted) := r in do rest <- fit_loop flow caching ps l x' y'; Ok ((n1, SObj fitted) :: fst rest, snd rest))%list).
    { intros o Ho. destruct o; try discriminate Ho. unfold fit_transform_resample_one, fit_transform_one. cbn [bind has FlowModel.flow est_has fit_transform fit_transform_resample].
      destruct p; [|reflexivity]. cbn [no_params est_fit]. destruct ((1 <=? size0) && (1 <=? stride0)); [|reflexivity]. unfold est_transform_resample. cbn.
      destruct (sw_transform size0 stride0 X) as [W|]; [|reflexivity]. cbn [bind fst snd].
      pose proof (loop_target caching ps l NR (Windows W) (Some (sw_resample size0 stride0 y)) None) as T.
      destruct (fit_loop flow caching ps l (Windows W) (Some (sw_resample size0 stride0 y))) as [[? [? ?]]|], (fit_loop flow caching ps l (Windows W) None) as [[? [? ?]]|]; cbn in *; intuition congruence. }
    destruct caching; apply K; reflexivity. }
  change (rev steps) with ((n4, @SObj est (p_feat s4)) :: [(n3, SObj (p_vr s3)); (n2, SObj (p_takens b2)); (n1, SObj (p_window b1))])%list. cbv iota.
  destruct (fit_loop flow caching (empty_params steps) (removelast steps) (Series X) (Some y)) as [[l [x1 y1]]|], (fit_loop flow caching (empty_params steps) (removelast steps) (Series X) None) as [[l' [x1' y1']]|];
    cbn [same_but_target] in S; try contradiction; [destruct S as [-> ->]|now subst]. cbn [bind fst snd].
  destruct (params_of n4 (empty_params steps)) as [p|]; cbn [bind]; [|reflexivity].
  destruct (final_estimator (l ++ [(n4, SObj (p_feat s4))])%list) as [[o|]|]; reflexivity.
Qed.

Lemma run_unique (X X' : list A) a a' w w' : is_run X a size w -> is_run X' a' size w' -> (forall j, 0 <= j < size -> Znth X (a + j) = Znth X' (a' + j)) -> w = w'.
Proof.
  intros [L K] [L' K'] E. apply Znth_ext; [lia|]. intros j Bj. rewrite (proj1 (K j ltac:(lia))), (proj1 (K' j ltac:(lia))). apply E. lia.
Qed.
Lemma embedding_unique (w : list A) c c' : is_embedding w t d s elv c -> is_embedding w t d s elv c' -> c = c'.
Proof.
  intros [L K] [L' K']. apply Znth_ext; [lia|]. intros i Bi. destruct (K i ltac:(lia)) as (v & -> & [Lv Kv]).
  destruct (K' i ltac:(lia)) as (v' & -> & [Lv' Kv']). f_equal. apply Znth_ext; [lia|]. intros j Bj.
  now rewrite (proj1 (Kv j ltac:(lia))), (proj1 (Kv' j ltac:(lia))).
Qed.

(** The features of a window depend neither on the rest of the series, nor on the position of the
    window, nor on the training series, nor on the labels. *)
Theorem window_features_independent (X : list A) (y : list B) F yr (X' : list A) (y' : list B) F' yr' i i' :
  flow_result X y F yr -> flow_result X' y' F' yr' -> 0 <= i < zlen F -> 0 <= i' < zlen F' ->
  (forall j, 0 <= j < size ->
     Znth X ((zlen X - size) mod stride + i * stride + j) = Znth X' ((zlen X' - size) mod stride + i' * stride + j)) ->
  Znth F i = Znth F' i'.
Proof.
  intros (LF & _ & K) (LF' & _ & K') Bi Bi' E. destruct (K i ltac:(lia)) as (_ & w & row & Rw & -> & c & Ec & Fc).
  destruct (K' i' ltac:(lia)) as (_ & w' & row' & Rw' & -> & c' & Ec' & Fc'). f_equal.
  assert (w' = w) as -> by (symmetry; eapply run_unique; eauto). assert (c' = c) as -> by (eapply embedding_unique; eauto).
  assert (KQ : forall dim, In dim sorted -> In dim dims) by (intro; apply Hsorted).
  clear - Fc Fc' KQ Hr. revert row' Fc'. induction Fc as [|dim v l row H Fc IH]; intros row' Fc'; inversion Fc'; subst; auto. f_equal.
  - eapply feature_value_unique; eauto. apply (pairs_off ripser dims max_edge inf reduced hi Hr). apply KQ. now left.
  - apply IH; auto. intros; apply KQ; now right.
Qed.
End Flow.

(** ** A concrete pipeline *)
Definition toy_ripser (hi : Z) (thresh : fl) (c : list (list Z)) : list (list (fl * fl)) :=
  [[(fz 0, fz 1); (fz 0, PInf)]; match c with (0 :: _) :: _ => [] | _ => [(fz 1, fz 3)] end].
Definition toy_steps : list (string * step est) :=
  [("window"%string, SObj (EWindow 4 2 false)); ("embed"%string, SObj (ETakens 1 2 1 false false));
   ("vr"%string, SObj (EVR [1; 0] PInf (Some (fz 9)) true None)); ("count"%string, SObj (EFeature Count 1 None))].
Lemma toy_well_formed : well_formed (@flow Z Z (Pt (fz 0) (fz 0) (fz 0)) toy_ripser) toy_steps.
Proof.
  apply (validate_iff (@flow Z Z (Pt (fz 0) (fz 0) (fz 0)) toy_ripser)). vm_compute. reflexivity.
Qed.
Lemma toy_answers c : ripser_answers toy_ripser 1 PInf (value_for PInf (Some (fz 9))) true [1; 0] c.
Proof.
  split; [reflexivity|]. intros dim p [<-|[<-|[]]] I; destruct c as [|[|[| |] ?] ?]; vm_compute in I;
    repeat (destruct I as [<-|I]; [eexists; eexists; split; reflexivity|]); destruct I.
Qed.
Lemma toy_sorted : sorted_dimensions [1; 0] [0; 1].
Proof.
  split; [cbn; tauto|]. intros i j a b Bi Ha Hb. apply Znth_Some_lt in Hb as Lb. cbn in Lb.
  assert (i = 0) as -> by lia. assert (j = 1) as -> by lia. vm_compute in Ha, Hb. injection Ha as <-. injection Hb as <-. lia.
Qed.
Example toy_pipeline : exists F yr steps',
  pipe_fit_transform_resample (@flow Z Z (Pt (fz 0) (fz 0) (fz 0)) toy_ripser) true toy_steps
    (Series [7; 5; 0; 1; 2; 3; 4]) (Some [10; 11; 12; 13; 14; 15; 16]) [] = Ok (steps', Some (Table F, Some yr)) /\
  zlen F = 2 /\ Znth yr 0 = Some 14 /\ Znth yr 1 = Some 16.
Proof.
  destruct (time_series_fit_transform_resample (B := Z) (Pt (fz 0) (fz 0) (fz 0)) toy_ripser 4 2 1 2 1 false [1; 0] PInf (Some (fz 9)) true Count 1 1 [0; 1])
    with (caching := true) (n1 := "window"%string) (n2 := "embed"%string) (n3 := "vr"%string) (n4 := "count"%string) (b1 := false) (b2 := false)
    (s3 := @None fitted) (s4 := @None (list diagram)) (X := [7; 5; 0; 1; 2; 3; 4]) (y := [10; 11; 12; 13; 14; 15; 16])
    as (F & yr & steps' & E & _ & LF & LY & K); try lia; try exact toy_answers; try exact toy_sorted; try exact toy_well_formed.
  - repeat constructor; cbn; intuition discriminate.
  - cbn. intuition lia.
  - split; [now left|]. cbn. intuition lia.
  - vm_compute. discriminate.
  - vm_compute. reflexivity.
  - exists F, yr, steps'. split; [exact E|]. split; [rewrite LF; reflexivity|].
    split; [rewrite (proj1 (K 0 ltac:(vm_compute; split; [discriminate|reflexivity])))|rewrite (proj1 (K 1 ltac:(vm_compute; split; [discriminate|reflexivity])))]; reflexivity.
Qed.

Print Assumptions flow_lawful.
Print Assumptions time_series_pipeline_spec.
Print Assumptions time_series_fit_transform_resample.
Print Assumptions window_features_independent.
Print Assumptions time_series_pipeline_errors.
Print Assumptions time_series_fit_labels.
