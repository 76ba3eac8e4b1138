(** Property theorems for pipelines (C53). *)
From Coq Require Import String.
From Verif Require Import Np NpFacts MParModel PipeModel PipeSpec PipeProofs.
Open Scope Z_scope.
Open Scope string_scope.

Section Thms.
Context {O X Y V R : Type}.
Variable M : methods O X Y V R.
Notation steps_list := (list (string * step O)).

(** ** Applying a pipeline *)
(** C53: transform_resample moves data and target through all the estimators in order; the last one,
    if any, must be able to transform. *)
Theorem pipe_transform_resample_spec (steps : steps_list) l x y x' y' : estimators steps l ->
  (pipe_transform_resample M steps x y = Ok (x', y') <-> steps <> [] /\ passes M l x y x' y').
Proof.
  intros E. apply estimators_iff in E. subst l. unfold pipe_transform_resample, iter. destruct (last_split steps) as [->|[a [n [s ->]]]].
  - cbn. split; [discriminate|]. intros [H _]. now elim H.
  - rewrite final_app. cbn [bind]. split.
    + rewrite bind_iff. intros [_ [_ H]]. split; [destruct a; discriminate|]. now apply transform_resample_loop_iff.
    + intros [_ H]. apply bind_iff. exists tt. split; [|now apply transform_resample_loop_iff].
      destruct s as [| |o]; [reflexivity..|]. destruct (has M o TransformResample) eqn:T; [reflexivity|].
      rewrite objects_app in H. apply passes_app in H. destruct H as [x1 [y1 [_ H]]]. inversion H. subst.
      match goal with Hm : moves _ _ _ _ _ _ |- _ => unfold moves in Hm; rewrite T in Hm end. apply get_iff. tauto.
Qed.
(** C53: transform moves the data through all the estimators in order. *)
Theorem pipe_transform_spec (steps : steps_list) l x x' : estimators steps l ->
  (pipe_transform M steps x = Ok x' <-> steps <> [] /\ transforms M l x x').
Proof.
  intros E. apply estimators_iff in E. subst l. unfold pipe_transform, iter. destruct (last_split steps) as [->|[a [n [s ->]]]].
  - cbn. split; [discriminate|]. intros [H _]. now elim H.
  - rewrite final_app. cbn [bind]. split.
    + rewrite bind_iff. intros [_ [_ H]]. split; [destruct a; discriminate|]. now apply transform_loop_iff.
    + intros [_ H]. apply bind_iff. exists tt. split; [|now apply transform_loop_iff].
      destruct s as [| |o]; [reflexivity..|].
      rewrite objects_app in H. apply transforms_app in H. destruct H as [x1 [_ H]]. inversion H. subst. now apply get_iff.
Qed.
(** C53: predict is the last estimator's prediction for the data moved through the others. *)
Theorem pipe_predict_spec (before : steps_list) n o l x r : estimators before l ->
  (pipe_predict M (before ++ [(n, SObj o)])%list x = Ok r <->
   has M o Predict = true /\ exists x', transforms M l x x' /\ predict M o x' = Ok r).
Proof.
  intros E. apply estimators_iff in E. subst l. unfold pipe_predict, iter. rewrite final_app, removelast_last. cbn [bind]. rewrite get_iff, bind_iff.
  split; intros [H [x' [H1 H2]]]; (split; [exact H|]); exists x'; (split; [now apply transform_loop_iff|exact H2]).
Qed.
(** C53: score is the last estimator's score for the data and target moved through the others. *)
Theorem pipe_score_spec (before : steps_list) n o l x y w r : estimators before l ->
  (pipe_score M (before ++ [(n, SObj o)])%list x y w = Ok r <->
   has M o Score = true /\ exists x' y', passes M l x y x' y' /\ score M o x' y' w = Ok r).
Proof.
  intros E. apply estimators_iff in E. subst l. unfold pipe_score, iter. rewrite final_app, removelast_last. cbn [bind]. rewrite get_iff, bind_iff. split.
  - intros [H [[x' y'] [H1 H2]]]. split; [exact H|]. exists x', y'. split; [now apply transform_resample_loop_iff|exact H2].
  - intros [H [x' [y' [H1 H2]]]]. split; [exact H|]. exists (x', y'). split; [now apply transform_resample_loop_iff|exact H2].
Qed.
(** C53: without a final estimator there is no prediction and no score. *)
Theorem no_final_estimator (before : steps_list) n s x y w : (forall o, s <> SObj o) ->
  pipe_predict M (before ++ [(n, s)])%list x = Err AttributeError /\ pipe_score M (before ++ [(n, s)])%list x y w = Err AttributeError.
Proof. intros H. unfold pipe_predict, pipe_score. rewrite final_app. destruct s as [| |o]; [split; reflexivity..|now elim (H o)]. Qed.

(** C53: data and target stay aligned if each estimator keeps them aligned. *)
Theorem pipe_aligned (aligned : X -> option Y -> Prop) (steps : steps_list) l x y x' y' : estimators steps l ->
  (forall o x y x' y', In o l -> aligned x y -> moves M o x y x' y' -> aligned x' y') ->
  aligned x y -> pipe_transform_resample M steps x y = Ok (x', y') -> aligned x' y'.
Proof.
  intros E HA H HP. apply (proj1 (pipe_transform_resample_spec _ _ _ _ _ _ E)) in HP. destruct HP as [_ HP]. clear E. revert H.
  induction HP as [|o l x y x1 y1 x' y' Hm Hp IH]; [auto|]. intros H. apply IH; [intros; eapply HA; eauto; now right|].
  eapply HA; eauto. now left.
Qed.

(** C53 (finding): Pipeline.resample does not look at the argument it is given: with one argument, as
    documented, the first step gets None. *)
Theorem pipe_resample_ignores_argument (steps : steps_list) y1 y2 : pipe_resample M steps y1 None = pipe_resample M steps y2 None.
Proof. reflexivity. Qed.
Inductive resamples : list O -> option Y -> option Y -> Prop :=
| rs_nil y : resamples [] y y
| rs_cons o l y y1 y' : has M o Resample = true -> resample M o y = Ok y1 -> resamples l y1 y' -> resamples (o :: l) y y'.
Theorem pipe_resample_spec (steps : steps_list) l y1 y2 y' : estimators steps l ->
  (pipe_resample M steps y1 y2 = Ok y' <-> steps <> [] /\ resamples l y2 y').
Proof.
  intros E. apply estimators_iff in E. subst l. unfold pipe_resample, iter.
  set (go := fix go (l : list O) (yr : option Y) : res (option Y) := match l with [] => Ok yr | o :: t => do yr0 <- get M o Resample (resample M o yr); go t yr0 end).
  assert (G : forall l y y', go l y = Ok y' <-> resamples l y y').
  { induction l as [|o t IH]; intros y y''; cbn [go].
    - split; [intros H; injection H as <-; constructor|inversion 1; reflexivity].
    - rewrite bind_iff. split.
      + intros [y3 [H1 H2]]. apply get_iff in H1. destruct H1. apply IH in H2. econstructor; eauto.
      + inversion 1. subst. eexists. split; [apply get_iff; split; eassumption|now apply IH]. }
  destruct (last_split steps) as [->|[a [n [s ->]]]].
  - cbn. split; [discriminate|]. intros [H _]. now elim H.
  - rewrite final_app. cbn [bind]. split.
    + rewrite bind_iff. intros [_ [_ H]]. split; [destruct a; discriminate|]. now apply G.
    + intros [_ H]. apply bind_iff. exists tt. split; [|now apply G].
      destruct s as [| |o]; [reflexivity..|]. apply get_iff. split; [|reflexivity].
      rewrite objects_app in H. clear - H. induction (objects a) as [|o' t IH] in y2, H.
      * cbn in H. now inversion H.
      * cbn in H. inversion H. subst. eauto.
Qed.

(** C53: inverse_transform undoes the estimators in reverse order if they accept a target as second
    argument... *)
Inductive undoes : list O -> X -> X -> Prop :=
| un_nil x : undoes [] x x
| un_cons o l x x1 x' : inverse_transform1 M o x = Ok x1 -> undoes l x1 x' -> undoes (o :: l) x x'.
Theorem pipe_inverse_transform_spec (steps : steps_list) l x y x' : estimators steps l ->
  (forall o x y, In o l -> inverse_transform2 M o x y = inverse_transform1 M o x) ->
  (pipe_inverse_transform M steps x y = Ok x' <-> (forall o, In o l -> has M o InverseTransform = true) /\ undoes (rev l) x x').
Proof.
  intros E H2. apply estimators_iff in E. subst l. unfold pipe_inverse_transform, iter.
  destruct (existsb _ (objects steps)) eqn:E.
  - split; [discriminate|]. intros [H _]. apply existsb_exists in E. destruct E as [o [I E]]. rewrite (H o I) in E. discriminate.
  - rewrite existsb_false in E. transitivity (undoes (rev (objects steps)) x x').
    + assert (H2' : forall o x y, In o (rev (objects steps)) -> inverse_transform2 M o x y = inverse_transform1 M o x) by (intros; apply H2; now apply in_rev).
      clear E H2. revert x. induction (rev (objects steps)) as [|o t IH]; intros x; cbn [inverse_loop].
      * split; [intros H; injection H as <-; constructor|inversion 1; reflexivity].
      * rewrite bind_iff. rewrite H2' by now left. split.
        -- intros [x1 [H1 H3]]. apply IH in H3; [|intros; apply H2'; now right]. econstructor; eauto.
        -- inversion 1. subst. eexists. split; [eassumption|]. apply IH; [intros; apply H2'; now right|assumption].
    + split; [intros H; split; [|exact H]; intros o I; apply E in I; now apply negb_false_iff in I|tauto].
Qed.
(** ... (finding) but fails if one of them follows scikit-learn's convention inverse_transform(X). *)
Theorem pipe_inverse_transform_refuted (steps : steps_list) l o x y x' : estimators steps l -> In o l ->
  (forall x y, inverse_transform2 M o x y = Err TypeError) -> pipe_inverse_transform M steps x y <> Ok x'.
Proof.
  intros E I H. apply estimators_iff in E. subst l. unfold pipe_inverse_transform, iter. destruct (existsb _ _); [discriminate|].
  apply in_rev in I. revert x. induction (rev (objects steps)) as [|o' t IH]; intros x; [destruct I|]. cbn [inverse_loop].
  destruct I as [->|I]; [rewrite H; discriminate|]. destruct (inverse_transform2 M o' x y); [|discriminate]. now apply IH.
Qed.

(** ** Fitting a pipeline *)
Hypothesis L : lawful M.

Lemma fit_steps_iff caching (a : steps_list) n s x y ps steps' xt yr p :
  fit_steps M caching (a ++ [(n, s)])%list x y ps = Ok (steps', (xt, yr), p) <->
  well_formed M (a ++ [(n, s)])%list /\ params_ok (a ++ [(n, s)])%list ps /\
  exists a', steps' = (a' ++ [(n, s)])%list /\ learns M caching ps a x y a' xt yr /\
  p = match s with SObj _ => addr n ps | _ => [] end.
Proof.
  unfold fit_steps. rewrite bind_iff.
  assert (Hin : forall k o, well_formed M (a ++ [(n, s)])%list -> In (k, SObj o) a -> (has M o Fit = true \/ has M o FitTransform = true) /\ has M o Transform = true).
  { intros k o [_ [_ [b [m [t [E [H _]]]]]]] I. apply app_inj_tail in E. destruct E as [<- _]. exact (H k o I). }
  split.
  - intros [[] [HV H]]. apply validate_iff in HV. apply bind_iff in H. destruct H as [d [Hd H]].
    assert (N : NoDup (map fst (a ++ [(n, s)])%list)) by apply HV.
    apply bind_iff in H. destruct H as [[a' [x' y']] [Hl H]]. rewrite removelast_last in Hl.
    apply (fit_loop_iff M L caching (a ++ [(n, s)])%list ps d N Hd) in Hl; [|intros q I; apply in_or_app; now left|intros k o I; now apply (Hin k o)].
    rewrite rev_app_distr in H. cbn [rev app fst snd] in H.
    split; [exact HV|]. split; [apply (split_iff (a ++ [(n, s)])%list ps N); now exists d|].
    destruct s as [| |o].
    + injection H as <- <- <- <-. exists a'. auto.
    + injection H as <- <- <- <-. exists a'. auto.
    + rewrite (params_of_ok _ ps d n (SObj o) N Hd) in H; [|apply in_or_app; right; now left|discriminate]. cbn [bind] in H. injection H as <- <- <- <-. exists a'. auto.
  - intros [HV [HP [a' [-> [Hl ->]]]]]. exists tt. split; [now apply validate_iff|].
    assert (N : NoDup (map fst (a ++ [(n, s)])%list)) by apply HV.
    destruct (proj2 (split_iff (a ++ [(n, s)])%list ps N) HP) as [d Hd]. apply bind_iff. exists d. split; [exact Hd|].
    apply bind_iff. exists (a', (xt, yr)). split.
    + rewrite removelast_last. apply (fit_loop_iff M L caching (a ++ [(n, s)])%list ps d N Hd); [intros q I; apply in_or_app; now left|intros k o I; now apply (Hin k o)|exact Hl].
    + rewrite rev_app_distr. cbn [rev app fst snd]. destruct s as [| |o]; [reflexivity..|].
      rewrite (params_of_ok _ ps d n (SObj o) N Hd); [reflexivity|apply in_or_app; right; now left|discriminate].
Qed.

(** C53: fit fits each estimator on the data and target moved through the fitted estimators before it,
    with exactly the keyword arguments addressed to it. *)
Theorem pipe_fit_spec caching (before : steps_list) n s x y ps steps' :
  pipe_fit M caching (before ++ [(n, s)])%list x y ps = Ok steps' <->
  well_formed M (before ++ [(n, s)])%list /\ params_ok (before ++ [(n, s)])%list ps /\
  exists before' s' xt yr, steps' = (before' ++ [(n, s')])%list /\ learns M caching ps before x y before' xt yr /\
  match s with
  | SObj o => exists p o', addressed n ps p /\ fit M o xt yr p = Ok o' /\ s' = SObj o'
  | _ => s' = s
  end.
Proof.
  unfold pipe_fit. rewrite bind_iff. split.
  - intros [[[st [xt yr]] p] [H1 H2]]. apply fit_steps_iff in H1. destruct H1 as [HV [HP [a' [-> [Hl ->]]]]].
    split; [exact HV|]. split; [exact HP|]. rewrite final_app in H2. cbn [bind] in H2. destruct s as [| |o].
    + injection H2 as <-. exists a', SNone, xt, yr. auto.
    + injection H2 as <-. exists a', SPass, xt, yr. auto.
    + apply bind_iff in H2. destruct H2 as [o' [H2 H3]]. apply get_iff in H2. rewrite with_last_app in H3. injection H3 as <-.
      exists a', (SObj o'), xt, yr. split; [reflexivity|]. split; [exact Hl|]. exists (addr n ps), o'. split; [now apply addressed_iff|]. tauto.
  - intros [HV [HP [a' [s' [xt [yr [-> [Hl H]]]]]]]].
    exists ((a' ++ [(n, s)])%list, (xt, yr), match s with SObj _ => addr n ps | _ => [] end). split.
    + apply fit_steps_iff. split; [exact HV|]. split; [exact HP|]. exists a'. auto.
    + rewrite final_app. cbn [bind]. destruct s as [| |o]; [now rewrite H..|]. destruct H as [p [o' [Ha [Hf ->]]]]. apply addressed_iff in Ha. subst p.
      rewrite Hf. unfold get. destruct HV as [_ [_ [b [m [t [E [_ HF]]]]]]]. apply app_inj_tail in E. destruct E as [_ E]. injection E as _ E.
      rewrite (HF o) by congruence. cbn [bind]. now rewrite with_last_app.
Qed.

(** What fitting did to data and target, seen from the fitted pipeline. *)
Lemma learns_objects caching ps a x y a' xt yr : learns M caching ps a x y a' xt yr ->
  (forall k o, In (k, SObj o) a -> has M o Transform = true) ->
  transforms M (objects a') x xt /\ (y <> None -> yr <> None /\ passes M (objects a') x y xt yr) /\ (y = None -> yr = None).
Proof.
  induction 1 as [x y|n s t x y t' x' y' Hs H IH|n o p o' t x y x1 y1 t' x' y' Ha Hf Hm H IH]; intros HT.
  - split; [constructor|]. split; [intros Hy; split; [exact Hy|constructor]|auto].
  - assert (E : objects ((n, s) :: t') = objects t') by (destruct s as [| |o]; [reflexivity..|now elim (Hs o)]).
    rewrite E. apply IH. intros k o I. apply (HT k o). now right.
  - assert (IH' := IH (fun k o I => HT k o (or_intror I))). destruct IH' as [I1 [I2 I3]].
    assert (HT' : has M o' Transform = true).
    { rewrite (law_fit_has M L _ _ _ _ _ _ Hf). destruct caching; rewrite ?(law_clone_has M L); apply (HT n o); now left. }
    change (objects ((n, SObj o') :: t')) with (o' :: objects t'). unfold fit_moves in Hm. destruct y as [y|].
    + assert (T : transform M o' x = Ok x1 /\ y1 <> None).
      { unfold moves in Hm. destruct (has M o' TransformResample) eqn:ET; [now apply (law_tr M L _ _ _ _ _ ET Hm)|]. destruct Hm as [_ [Hm ->]]. split; [exact Hm|discriminate]. }
      destruct T as [T1 T2]. split; [econstructor; eauto|]. split; [|discriminate]. intros _. destruct (I2 T2) as [J1 J2]. split; [exact J1|].
      econstructor; eauto.
    + destruct Hm as [T1 ->]. split; [econstructor; eauto|]. split; [now intros []|]. intros _. now apply I3.
Qed.
Lemma wf_transform (a : steps_list) n s : well_formed M (a ++ [(n, s)])%list -> forall k o, In (k, SObj o) a -> has M o Transform = true.
Proof. intros [_ [_ [b [m [t [E [H _]]]]]]] k o I. apply app_inj_tail in E. destruct E as [<- _]. apply (H k o I). Qed.
Lemma wf_fit (a : steps_list) n o : well_formed M (a ++ [(n, SObj o)])%list -> has M o Fit = true.
Proof. intros [_ [_ [b [m [t [E [_ H]]]]]]]. apply app_inj_tail in E. destruct E as [_ E]. injection E as _ E. now apply H. Qed.

(** C53: fit_transform_resample is fit followed by transform_resample of the fitted pipeline. *)
Theorem fit_transform_resample_consistent caching (before : steps_list) n s x y ps steps' x' y' :
  (forall o, s = SObj o -> has M o FitTransformResample = true \/ has M o FitTransform = true /\ has M o TransformResample = false) ->
  (pipe_fit_transform_resample M caching (before ++ [(n, s)])%list x (Some y) ps = Ok (steps', Some (x', y')) <->
   pipe_fit M caching (before ++ [(n, s)])%list x (Some y) ps = Ok steps' /\
   pipe_transform_resample M steps' x (Some y) = Ok (x', y')).
Proof.
  intros HL. unfold pipe_fit_transform_resample. rewrite final_app. cbn [bind]. rewrite bind_iff. split.
  - intros [[[st [xt yr]] p] [H1 H2]]. pose proof H1 as H0. apply fit_steps_iff in H1. destruct H1 as [HV [HP [a' [-> [Hl ->]]]]].
    destruct (learns_objects _ _ _ _ _ _ _ _ Hl (wf_transform _ _ _ HV)) as [HT [HY _]]. destruct (HY ltac:(discriminate)) as [HS HPS].
    destruct s as [| |o].
    + injection H2 as <- <- <-. split; [apply pipe_fit_spec; split; [exact HV|]; split; [exact HP|]; exists a', SNone, xt, yr; auto|].
      apply (pipe_transform_resample_spec _ (objects a')); [apply estimators_iff; rewrite objects_app; cbn; now rewrite app_nil_r|]. split; [destruct a'; discriminate|exact HPS].
    + injection H2 as <- <- <-. split; [apply pipe_fit_spec; split; [exact HV|]; split; [exact HP|]; exists a', SPass, xt, yr; auto|].
      apply (pipe_transform_resample_spec _ (objects a')); [apply estimators_iff; rewrite objects_app; cbn; now rewrite app_nil_r|]. split; [destruct a'; discriminate|exact HPS].
    + assert (K : exists o', fit M o xt yr (addr n ps) = Ok o' /\ moves M o' xt yr x' y' /\ steps' = (a' ++ [(n, SObj o')])%list).
      { destruct (HL o eq_refl) as [HL'|[HL' HL'']].
        - rewrite HL' in H2. rewrite (law_ftr M L) in H2 by exact HL'. apply bind_iff in H2. destruct H2 as [[o1 r1] [H2 H3]]. apply bind_iff in H2. destruct H2 as [o2 [H4 H2]].
          apply bind_iff in H2. destruct H2 as [r2 [H5 H2]]. injection H2 as <- <-. rewrite with_last_app in H3. cbn [fst snd] in H3. injection H3 as <- ->.
          exists o2. split; [exact H4|]. split; [|reflexivity]. unfold moves. rewrite (law_fit_has M L _ _ _ _ _ _ H4), (law_kind M L), HL', orb_true_r. exact H5.
        - destruct (has M o FitTransformResample) eqn:EF; [rewrite (law_kind M L), EF, orb_true_r in HL''; discriminate|].
          rewrite HL' in H2. rewrite (law_ft M L) in H2 by exact HL'. apply bind_iff in H2. destruct H2 as [[o1 r1] [H2 H3]]. apply bind_iff in H2. destruct H2 as [o2 [H4 H2]].
          apply bind_iff in H2. destruct H2 as [r2 [H5 H2]]. injection H2 as <- <-. rewrite with_last_app in H3. cbn [fst snd] in H3. injection H3 as <- <- <-.
          exists o2. split; [exact H4|]. split; [|reflexivity]. unfold moves. rewrite !(law_fit_has M L _ _ _ _ _ _ H4), HL''. split; [now apply (law_has_ft M L)|auto]. }
      destruct K as [o' [K1 [K2 ->]]]. split.
      * apply pipe_fit_spec. split; [exact HV|]. split; [exact HP|]. exists a', (SObj o'), xt, yr. split; [reflexivity|]. split; [exact Hl|].
        exists (addr n ps), o'. split; [now apply addressed_iff|auto].
      * apply (pipe_transform_resample_spec _ (objects a' ++ [o'])%list); [apply estimators_iff; now rewrite objects_app|]. split; [destruct a'; discriminate|].
        apply passes_app. exists xt, yr. split; [exact HPS|]. econstructor; [exact K2|constructor].
  - intros [HF HT]. apply pipe_fit_spec in HF. destruct HF as [HV [HP [a' [s' [xt [yr [-> [Hl H]]]]]]]].
    destruct (learns_objects _ _ _ _ _ _ _ _ Hl (wf_transform _ _ _ HV)) as [_ [HY _]]. destruct (HY ltac:(discriminate)) as [HS HPS].
    exists ((a' ++ [(n, s)])%list, (xt, yr), match s with SObj _ => addr n ps | _ => [] end).
    split; [apply fit_steps_iff; split; [exact HV|]; split; [exact HP|]; exists a'; auto|].
    apply (proj1 (pipe_transform_resample_spec _ _ _ _ _ _ (proj2 (estimators_iff _ _) eq_refl))) in HT. destruct HT as [_ HT]. rewrite objects_app in HT.
    apply passes_app in HT. destruct HT as [x1 [y1 [HT1 HT2]]]. destruct (passes_fun M _ _ _ _ _ _ _ HPS HT1) as [<- <-].
    destruct s as [| |o].
    + subst s'. inversion HT2. now subst.
    + subst s'. inversion HT2. now subst.
    + destruct H as [p [o' [Ha [Hf ->]]]]. apply addressed_iff in Ha. subst p. cbn in HT2.
      inversion HT2 as [|? ? ? ? x2 y2 ? ? Hm Hn]; subst. inversion Hn; subst. unfold moves in Hm.
      rewrite !(law_fit_has M L _ _ _ _ _ _ Hf) in Hm. destruct (HL o eq_refl) as [HL'|[HL' HL'']].
      * rewrite (law_kind M L), HL', orb_true_r in Hm. rewrite HL', (law_ftr M L) by exact HL'. rewrite Hf. cbn [bind]. rewrite Hm. cbn [bind fst snd]. now rewrite with_last_app.
      * destruct (has M o FitTransformResample) eqn:EF; [rewrite (law_kind M L), EF, orb_true_r in HL''; discriminate|].
        rewrite HL'' in Hm. destruct Hm as [_ [Hm ->]]. rewrite HL', (law_ft M L) by exact HL'. rewrite Hf. cbn [bind]. rewrite Hm. cbn [bind fst snd]. now rewrite with_last_app.
Qed.

(** C53 (finding): with a last estimator having neither fit_transform_resample nor fit_transform it
    returns None and leaves that estimator unfitted. *)
Theorem fit_transform_resample_none caching (before : steps_list) n o x y ps r :
  has M o FitTransformResample = false -> has M o FitTransform = false ->
  pipe_fit_transform_resample M caching (before ++ [(n, SObj o)])%list x y ps = Ok r ->
  snd r = None /\ exists before', fst r = (before' ++ [(n, SObj o)])%list.
Proof.
  intros H1 H2. unfold pipe_fit_transform_resample. rewrite final_app. cbn [bind]. rewrite bind_iff. intros [[[st [xt yr]] p] [H3 H4]].
  rewrite H1, H2 in H4. injection H4 as <-. apply fit_steps_iff in H3. destruct H3 as [_ [_ [a' [-> _]]]]. split; [reflexivity|]. now exists a'.
Qed.

(** C53: fit_transform is fit followed by transform of the fitted pipeline. *)
Theorem fit_transform_consistent caching (before : steps_list) n s x y ps steps' x' :
  pipe_fit_transform M caching (before ++ [(n, s)])%list x y ps = Ok (steps', x') <->
  pipe_fit M caching (before ++ [(n, s)])%list x y ps = Ok steps' /\ pipe_transform M steps' x = Ok x'.
Proof.
  unfold pipe_fit_transform. rewrite final_app. cbn [bind]. rewrite bind_iff. split.
  - intros [[[st [xt yr]] p] [H1 H2]]. apply fit_steps_iff in H1. destruct H1 as [HV [HP [a' [-> [Hl ->]]]]].
    destruct (learns_objects _ _ _ _ _ _ _ _ Hl (wf_transform _ _ _ HV)) as [HT _].
    destruct s as [| |o].
    + injection H2 as <- <-. split; [apply pipe_fit_spec; split; [exact HV|]; split; [exact HP|]; exists a', SNone, xt, yr; auto|].
      apply (pipe_transform_spec _ (objects a')); [apply estimators_iff; rewrite objects_app; cbn; now rewrite app_nil_r|]. split; [destruct a'; discriminate|exact HT].
    + injection H2 as <- <-. split; [apply pipe_fit_spec; split; [exact HV|]; split; [exact HP|]; exists a', SPass, xt, yr; auto|].
      apply (pipe_transform_spec _ (objects a')); [apply estimators_iff; rewrite objects_app; cbn; now rewrite app_nil_r|]. split; [destruct a'; discriminate|exact HT].
    + assert (K : exists o', fit M o xt yr (addr n ps) = Ok o' /\ has M o' Transform = true /\ transform M o' xt = Ok x' /\ steps' = (a' ++ [(n, SObj o')])%list).
      { destruct (has M o FitTransform) eqn:EF.
        - rewrite (law_ft M L) in H2 by exact EF. apply bind_iff in H2. destruct H2 as [[o1 r1] [H2 H3]]. apply bind_iff in H2. destruct H2 as [o2 [H4 H2]].
          apply bind_iff in H2. destruct H2 as [r2 [H5 H2]]. injection H2 as <- <-. rewrite with_last_app in H3. cbn [fst snd] in H3. injection H3 as <- <-.
          exists o2. rewrite (law_fit_has M L _ _ _ _ _ _ H4). split; [exact H4|]. split; [now apply (law_has_ft M L)|auto].
        - apply bind_iff in H2. destruct H2 as [o2 [H4 H2]]. apply get_iff in H4. apply bind_iff in H2. destruct H2 as [r2 [H5 H2]]. apply get_iff in H5.
          rewrite with_last_app in H2. injection H2 as <- <-. exists o2. tauto. }
      destruct K as [o' [K1 [K2 [K3 ->]]]]. split.
      * apply pipe_fit_spec. split; [exact HV|]. split; [exact HP|]. exists a', (SObj o'), xt, yr. split; [reflexivity|]. split; [exact Hl|].
        exists (addr n ps), o'. split; [now apply addressed_iff|auto].
      * apply (pipe_transform_spec _ (objects a' ++ [o'])%list); [apply estimators_iff; now rewrite objects_app|]. split; [destruct a'; discriminate|].
        apply transforms_app. exists xt. split; [exact HT|]. econstructor; [exact K2|exact K3|constructor].
  - intros [HF HT]. apply pipe_fit_spec in HF. destruct HF as [HV [HP [a' [s' [xt [yr [-> [Hl H]]]]]]]].
    destruct (learns_objects _ _ _ _ _ _ _ _ Hl (wf_transform _ _ _ HV)) as [HT' _].
    exists ((a' ++ [(n, s)])%list, (xt, yr), match s with SObj _ => addr n ps | _ => [] end).
    split; [apply fit_steps_iff; split; [exact HV|]; split; [exact HP|]; exists a'; auto|].
    apply (proj1 (pipe_transform_spec _ _ _ _ (proj2 (estimators_iff _ _) eq_refl))) in HT. destruct HT as [_ HT]. rewrite objects_app in HT.
    apply transforms_app in HT. destruct HT as [x1 [HT1 HT2]].
    assert (E : x1 = xt) by (apply transform_loop_iff in HT', HT1; congruence). subst x1.
    destruct s as [| |o].
    + subst s'. inversion HT2. now subst.
    + subst s'. inversion HT2. now subst.
    + destruct H as [p [o' [Ha [Hf ->]]]]. apply addressed_iff in Ha. subst p. cbn in HT2.
      inversion HT2 as [|? ? ? x2 ? Hh Hm Hn]; subst. inversion Hn; subst.
      destruct (has M o FitTransform) eqn:EF.
      * rewrite (law_ft M L) by exact EF. rewrite Hf. cbn [bind]. rewrite Hm. cbn [bind fst snd]. now rewrite with_last_app.
      * unfold get at 1. rewrite (wf_fit _ _ _ HV). rewrite Hf. cbn [bind]. unfold get. rewrite Hh, Hm. cbn [bind]. now rewrite with_last_app.
Qed.

(** C53: fit_predict fits the first estimators as fit does and returns the last one's fit_predict. *)
Theorem pipe_fit_predict_spec caching (before : steps_list) n o x y ps steps' r :
  pipe_fit_predict M caching (before ++ [(n, SObj o)])%list x y ps = Ok (steps', r) <->
  has M o FitPredict = true /\ well_formed M (before ++ [(n, SObj o)])%list /\ params_ok (before ++ [(n, SObj o)])%list ps /\
  exists before' p o' xt yr, steps' = (before' ++ [(n, SObj o')])%list /\ learns M caching ps before x y before' xt yr /\
  addressed n ps p /\ fit_predict M o xt yr p = Ok (o', r).
Proof.
  unfold pipe_fit_predict. rewrite final_app. cbn [bind]. rewrite get_iff, bind_iff. split.
  - intros [HH [[[st [xt yr]] p] [H1 H2]]]. split; [exact HH|]. apply fit_steps_iff in H1. destruct H1 as [HV [HP [a' [-> [Hl ->]]]]].
    apply bind_iff in H2. destruct H2 as [[o' r'] [H2 H3]]. rewrite with_last_app in H3. cbn [fst snd] in H3. injection H3 as <- <-.
    split; [exact HV|]. split; [exact HP|]. exists a', (addr n ps), o', xt, yr. repeat (split; [auto; now apply addressed_iff|]). exact H2.
  - intros [HH [HV [HP [a' [p [o' [xt [yr [-> [Hl [Ha Hf]]]]]]]]]]]. split; [exact HH|]. apply addressed_iff in Ha. subst p.
    exists ((a' ++ [(n, SObj o)])%list, (xt, yr), addr n ps). split; [apply fit_steps_iff; split; [exact HV|]; split; [exact HP|]; exists a'; auto|].
    rewrite Hf. cbn [bind fst snd]. now rewrite with_last_app.
Qed.

(** C53: on the training data, score is the last estimator's score on exactly the data and target it
    was fitted on. *)
Theorem fit_then_score caching (before : steps_list) n o x y ps steps' :
  pipe_fit M caching (before ++ [(n, SObj o)])%list x (Some y) ps = Ok steps' -> has M o Score = true ->
  exists p o' xt yr, addressed n ps p /\ fit M o xt yr p = Ok o' /\
  forall w, pipe_score M steps' x (Some y) w = score M o' xt yr w.
Proof.
  intros HF HS. apply pipe_fit_spec in HF. destruct HF as [HV [HP [a' [s' [xt [yr [-> [Hl [p [o' [Ha [Hf ->]]]]]]]]]]]].
  exists p, o', xt, yr. split; [exact Ha|]. split; [exact Hf|]. intros w.
  destruct (learns_objects _ _ _ _ _ _ _ _ Hl (wf_transform _ _ _ HV)) as [_ [HY _]]. destruct (HY ltac:(discriminate)) as [_ HPS].
  unfold pipe_score, iter. rewrite final_app, removelast_last. cbn [bind]. unfold get. rewrite (law_fit_has M L _ _ _ _ _ _ Hf), HS.
  apply transform_resample_loop_iff in HPS. now rewrite HPS.
Qed.

(** C53: the same alignment statement for fit_transform_resample. *)
Theorem fit_transform_resample_aligned (aligned : X -> option Y -> Prop) caching (before : steps_list) n s x y ps steps' x' y' :
  (forall o, s = SObj o -> has M o FitTransformResample = true \/ has M o FitTransform = true /\ has M o TransformResample = false) ->
  (forall o x y x' y', aligned x y -> moves M o x y x' y' -> aligned x' y') ->
  aligned x (Some y) ->
  pipe_fit_transform_resample M caching (before ++ [(n, s)])%list x (Some y) ps = Ok (steps', Some (x', y')) -> aligned x' y'.
Proof.
  intros HL HA H HP. apply fit_transform_resample_consistent in HP; [|exact HL]. destruct HP as [_ HP].
  apply (pipe_aligned aligned steps' (objects steps') x (Some y) x' y'); [now apply estimators_iff| |exact H|exact HP].
  intros. eapply HA; eauto.
Qed.
End Thms.

(** ** TransformerResamplerMixin *)
Section MixinThms.
Context {O X Y V R : Type}.
Variable fit_ : O -> X -> option Y -> list (string * V) -> res O.
Variable transform_ : O -> X -> option Y -> res X.
Variable resample_ : O -> Y -> option X -> res Y.
Variable no_target : exn.       (* the exception of resample(None) *)
(** transform ignores its optional target, as documented *)
Hypothesis transform_ignores_y : forall o x y, transform_ o x y = transform_ o x None.
(** The methods of the objects of such a class. *)
Definition mixin_methods : methods O X Y V R := {|
  has := fun _ a => match a with
                    | Fit | FitTransform | Transform | FitTransformResample | TransformResample | Resample => true
                    | _ => false end;
  fit := fit_; fit_transform := mixin_fit_transform fit_ transform_;
  transform := fun o x => transform_ o x None;
  fit_transform_resample := fun o x y p =>
    match y with
    | Some y => do r <- mixin_fit_transform_resample fit_ transform_ resample_ o x y p; Ok (fst r, (fst (snd r), Some (snd (snd r))))
    | None => do o' <- fit_ o x None p; do x' <- transform_ o' x None; Err no_target end;
  transform_resample := fun o x y =>
    match y with
    | Some y => do r <- mixin_transform_resample transform_ resample_ o x y; Ok (fst r, Some (snd r))
    | None => do x' <- transform_ o x None; Err no_target end;
  resample := fun o y => match y with Some y => do r <- resample_ o y None; Ok (Some r) | None => Err no_target end;
  inverse_transform1 := fun _ _ => Err AttributeError; inverse_transform2 := fun _ _ _ => Err AttributeError;
  fit_predict := fun _ _ _ _ => Err AttributeError; predict := fun _ _ => Err AttributeError;
  score := fun _ _ _ _ => Err AttributeError; clone := fun o => o |}.
(** C53: the mixin's methods obey the laws used above. *)
Theorem mixin_lawful : lawful mixin_methods.
Proof.
  split; cbn; try reflexivity.
  - auto.
  - intros o x y p _. unfold mixin_fit_transform. destruct y as [y|]; [|reflexivity].
    destruct (fit_ o x (Some y) p) as [o'|]; cbn; [|reflexivity]. now rewrite (transform_ignores_y o' x (Some y)).
  - intros o x y p _. destruct y as [y|].
    + unfold mixin_fit_transform_resample. destruct (fit_ o x (Some y) p) as [o'|]; cbn; [|reflexivity].
      destruct (mixin_transform_resample transform_ resample_ o' x y); reflexivity.
    + destruct (fit_ o x None p) as [o'|]; cbn; [|reflexivity]. destruct (transform_ o' x None); cbn; [|reflexivity].
      reflexivity.
  - intros o x y x' y' _. unfold mixin_transform_resample. destruct (transform_ o x None); cbn; [|discriminate].
    destruct (resample_ o y (Some x)); cbn; [|discriminate]. intros H. injection H as <- <-. split; [reflexivity|discriminate].
Qed.
End MixinThms.

(** C53: make_pipeline accepts the keyword argument memory and no other. *)
Theorem make_pipeline_spec {V} (kwargs : list (string * V)) : 
  make_pipeline_memory kwargs = if forallb (fun p => String.eqb "memory" (fst p)) kwargs then Ok (lookup "memory" kwargs) else Err TypeError.
Proof.
  unfold make_pipeline_memory. assert (G : forall l : list (string * V), filter (fun p => negb (String.eqb "memory" (fst p))) l = [] <-> forallb (fun p => String.eqb "memory" (fst p)) l = true).
  { induction l as [|p t IH]; [easy|]. cbn [filter forallb]. destruct (String.eqb "memory" (fst p)); cbn; [exact IH|]. split; discriminate. }
  destruct (forallb _ kwargs) eqn:E.
  - apply G in E. now rewrite E.
  - destruct (filter _ kwargs) eqn:F; [|reflexivity]. apply G in F. congruence.
Qed.

(** ** A concrete family of estimators: [Window k] drops the first k samples of data and target,
    [Shift] adds the first value it was fitted on, [Classifier] remembers what it was fitted on. *)
Inductive ex_obj := Window (k : Z) | Shift (b : Z) | Classifier (fitted : list Z * list Z).
Definition ex_drop (k : Z) (l : list Z) : list Z := skipn (Z.to_nat k) l.
Definition ex_methods : methods ex_obj (list Z) (list Z) Z Z := {|
  has := fun o a => match o, a with
    | Window _, (Fit | FitTransform | Transform | FitTransformResample | TransformResample | Resample) => true
    | Shift _, (Fit | Transform) => true
    | Classifier _, (Fit | Predict | Score) => true
    | _, _ => false end;
  fit := fun o x y p => match o with
    | Window k => Ok (Window k)
    | Shift _ => Ok (Shift (match p with (_, b) :: _ => b | [] => hd 0 x end))
    | Classifier _ => match y with Some y => Ok (Classifier (x, y)) | None => Err ValueError end end;
  fit_transform := fun o x y p => match o with Window k => Ok (Window k, ex_drop k x) | _ => Err AttributeError end;
  transform := fun o x => match o with Window k => Ok (ex_drop k x) | Shift b => Ok (map (Z.add b) x) | _ => Err AttributeError end;
  fit_transform_resample := fun o x y p => match o, y with
    | Window k, Some y => Ok (Window k, (ex_drop k x, Some (ex_drop k y))) | _, _ => Err ValueError end;
  transform_resample := fun o x y => match o, y with
    | Window k, Some y => Ok (ex_drop k x, Some (ex_drop k y)) | _, _ => Err ValueError end;
  resample := fun o y => match o, y with Window k, Some y => Ok (Some (ex_drop k y)) | _, _ => Err ValueError end;
  inverse_transform1 := fun _ x => Ok x; inverse_transform2 := fun _ _ _ => Err TypeError;
  fit_predict := fun _ _ _ _ => Err AttributeError;
  predict := fun _ x => Ok (zlen x);
  score := fun o x y _ => match o, y with Classifier (fx, _), Some y => Ok (zlen x * 100 + zlen y * 10 + zlen fx) | _, _ => Err ValueError end;
  clone := fun o => o |}.
Example ex_lawful : lawful ex_methods.
Proof.
  split; cbn.
  - intros [k|b|f] x y p o' a H; [injection H as <-; reflexivity..|]. destruct y; [injection H as <-; reflexivity|discriminate].
  - reflexivity.
  - intros [k|b|f]; cbn; auto; discriminate.
  - intros [k|b|f]; cbn; auto; discriminate.
  - intros [k|b|f]; reflexivity.
  - intros [k|b|f] x y p; cbn; auto; discriminate.
  - intros [k|b|f] x [y|] p; cbn; auto; discriminate.
  - intros [k|b|f] x y x' y'; cbn; try discriminate. intros _ H. injection H as <- <-. split; [reflexivity|discriminate].
Qed.
Definition ex_steps : list (string * step ex_obj) :=
  [("window", SObj (Window 1)); ("nothing", SPass); ("shift", SObj (Shift 0)); ("clf", SObj (Classifier ([], [])))].
Example ex_fit : pipe_fit ex_methods false ex_steps [5; 6; 7] (Some [1; 2; 3]) [] =
  Ok [("window", SObj (Window 1)); ("nothing", SPass); ("shift", SObj (Shift 6)); ("clf", SObj (Classifier ([12; 13], [2; 3])))].
Proof. reflexivity. Qed.
Example ex_fit_params : pipe_fit ex_methods false ex_steps [5; 6; 7] (Some [1; 2; 3]) [("shift__b", 20)] =
  Ok [("window", SObj (Window 1)); ("nothing", SPass); ("shift", SObj (Shift 20)); ("clf", SObj (Classifier ([26; 27], [2; 3])))].
Proof. reflexivity. Qed.
Example ex_fit_score : exists st, pipe_fit ex_methods false ex_steps [5; 6; 7] (Some [1; 2; 3]) [] = Ok st /\
  pipe_score ex_methods st [5; 6; 7] (Some [1; 2; 3]) None = Ok 222.
Proof. eexists. split; reflexivity. Qed.
Example ex_ftr : pipe_fit_transform_resample ex_methods false (removelast ex_steps ++ [("w", SObj (Window 1))])%list [5; 6; 7] (Some [1; 2; 3]) [] =
  Ok ([("window", SObj (Window 1)); ("nothing", SPass); ("shift", SObj (Shift 6)); ("w", SObj (Window 1))], Some ([13], Some [3])).
Proof. reflexivity. Qed.
Example ex_ftr_none : pipe_fit_transform_resample ex_methods false ex_steps [5; 6; 7] (Some [1; 2; 3]) [] =
  Ok ([("window", SObj (Window 1)); ("nothing", SPass); ("shift", SObj (Shift 6)); ("clf", SObj (Classifier ([], [])))], None).
Proof. reflexivity. Qed.
(** Pipeline.resample(y), refuted on a pipeline with one resampler: the given target is lost. *)
Theorem pipe_resample_refuted :
  pipe_resample ex_methods [("window", SObj (Window 1))] (Some [1; 2; 3]) None = Err ValueError /\
  resample ex_methods (Window 1) (Some [1; 2; 3]) = Ok (Some [2; 3]).
Proof. split; reflexivity. Qed.
(** Aligned = as many targets as samples. *)
Example ex_aligned : forall o x y x' y', (forall t, y = Some t -> zlen x = zlen t) -> moves ex_methods o x y x' y' -> forall t, y' = Some t -> zlen x' = zlen t.
Proof.
  intros [k|b|f] x y x' y' H Hm t E; unfold moves in Hm; cbn in Hm.
  - destruct y as [y|]; [|discriminate]. injection Hm as <- <-. injection E as <-. specialize (H y eq_refl). unfold ex_drop, zlen in *.
    rewrite !skipn_length. now replace (List.length x) with (List.length y) by (symmetry; now apply Nat2Z.inj).
  - destruct Hm as [_ [Hm ->]]. injection Hm as <-. unfold zlen in *. rewrite map_length. now apply H.
  - destruct Hm as [Hm _]. discriminate.
Qed.

(** A method the last step does not have is an AttributeError, before any step is run. *)
Theorem missing_method {O X Y V R} (M : methods O X Y V R) steps n o x y sw (caching : bool) p :
  let pipe := (steps ++ [(n, SObj o)])%list in
  (has M o Transform = false -> pipe_transform M pipe x = Err AttributeError) /\
  (has M o Transform = false -> has M o TransformResample = false ->
     pipe_transform_resample M pipe x y = Err AttributeError) /\
  (has M o Resample = false -> pipe_resample M pipe y None = Err AttributeError) /\
  (has M o Predict = false -> pipe_predict M pipe x = Err AttributeError) /\
  (has M o Score = false -> pipe_score M pipe x y sw = Err AttributeError) /\
  (has M o FitPredict = false -> pipe_fit_predict M caching pipe x y p = Err AttributeError) /\
  (has M o InverseTransform = false -> pipe_inverse_transform M pipe x y = Err AttributeError).
Proof.
  cbn zeta. unfold pipe_transform, pipe_transform_resample, pipe_resample, pipe_predict, pipe_score, pipe_fit_predict, pipe_inverse_transform.
  rewrite !final_app. cbn [bind]. unfold get.
  repeat split; intros H; try (intros K); rewrite ?H, ?K; auto.
  unfold iter, objects. rewrite flat_map_app, existsb_app. cbn [flat_map snd app existsb]. rewrite H.
  cbn. now rewrite orb_true_r.
Qed.

Print Assumptions pipe_fit_spec.
Print Assumptions fit_transform_resample_consistent.
Print Assumptions fit_transform_consistent.
Print Assumptions fit_then_score.
Print Assumptions pipe_transform_resample_spec.
Print Assumptions pipe_aligned.
Print Assumptions fit_transform_resample_aligned.
Print Assumptions mixin_lawful.
