(** C59 for OneDimensionalCover: what a history of fit and fit_transform calls, with parameters
    changed in between, leaves behind. *)
From Verif Require Import Np NpFacts Fl FlFacts.
From Verif Require Import CoverModel CoverThms.
Open Scope Z_scope.

Inductive cover_call := Fit (p : cover_params) (X : ndata) | FitTransform (p : cover_params) (X : ndata).
(** A failing call leaves the estimator as it was. *)
Definition step (st : cover_state) (c : cover_call) : cover_state :=
  match c with
  | Fit p X => match cover_fit p X with Ok st' => st' | Err _ => st end
  | FitTransform p X => match cover_fit_transform p st X with Ok (st', _) => st' | Err _ => st end
  end.
Definition after (h : list cover_call) : cover_state := fold_left step h None.

(** The calls which store limits: a successful fit, or a successful fit_transform with uniform kind. *)
Definition stores (c : cover_call) (s : cover_state) : Prop :=
  match c with
  | Fit p X => cover_fit p X = Ok s
  | FitTransform p X => kind p = Uniform /\ cover_fit p X = Ok s
  end.

Lemma step_cases st c : (exists s, stores c s /\ step st c = s) \/ ((forall s, ~ stores c s) /\ step st c = st).
Proof.
  destruct c as [p X|p X]; cbn [step stores].
  - destruct (cover_fit p X) as [s|]; [left; eauto|right; split; auto; easy].
  - destruct (kind p) eqn:K.
    + destruct (cover_fit_transform p st X) as [[st' cols]|] eqn:E.
      * left. exists st'. split; auto. split; auto. eapply uniform_fit_transform_fitted; eauto.
      * right. split; auto. intros s [_ H]. pose proof (cover_fit_transform_same p st X) as S. rewrite E, H in S. cbn in S.
        assert (T : exists r, cover_transform p s X = Ok r); [|destruct T as [r T]; rewrite T in S; easy].
        unfold cover_fit in H. unfold cover_transform. rewrite K in H. destruct (check_array_ X) as [X1|]; [|easy]. cbn [bind] in *.
        destruct (validate_cover p); [|easy]. cbn [bind] in H. destruct (one_column X1) as [xs|]; [|easy]. cbn [bind] in *.
        destruct (fit_uniform p xs) as [lims|]; [|easy]. cbn [bind] in H. injection H as <-. eauto.
    + right. split; [intros s [? _]; congruence|].
      destruct (cover_fit_transform p st X) as [[st' cols]|] eqn:E; auto. eapply balanced_fit_transform_not_fitted; eauto.
Qed.

(** The limits in place are those of the last call which stores limits. *)
Theorem cover_history h :
  (exists h1 c h2 s, h = h1 ++ c :: h2 /\ stores c s /\ (forall c' s', In c' h2 -> ~ stores c' s') /\ after h = s) \/
  ((forall c s, In c h -> ~ stores c s) /\ after h = None).
Proof.
  induction h as [|c h IH] using rev_ind; [right; split; auto|]. unfold after. rewrite fold_left_app. cbn [fold_left]. fold (after h).
  destruct (step_cases (after h) c) as [(s & S & E)|[S E]]; rewrite E.
  - left. exists h, c, [], s. repeat split; auto.
  - destruct IH as [(h1 & c1 & h2 & s & -> & S1 & N & ->)|[N ->]].
    + left. exists h1, c1, (h2 ++ [c]), s. rewrite <- app_assoc. repeat split; auto. intros c' s' I. apply in_app_or in I as [I|[<-|[]]]; auto.
    + right. split; auto. intros c' s' I. apply in_app_or in I as [I|[<-|[]]]; auto.
Qed.
(** For a uniform cover, the last successful call decides. *)
Corollary uniform_history h p X cols st : kind p = Uniform -> cover_fit_transform p st X = Ok cols ->
  cover_fit p X = Ok (after (h ++ [FitTransform p X])).
Proof.
  intros K E. unfold after. rewrite fold_left_app. cbn [fold_left]. fold (after h).
  destruct (step_cases (after h) (FitTransform p X)) as [(s & [_ S] & ->)|[S _]]; auto. exfalso.
  destruct cols as [s cols]. eapply (S s). split; auto. eapply uniform_fit_transform_fitted; eauto.
Qed.
(** A balanced one: fit, then fit_transform on other data: transform still uses the first data. *)
Definition q (z : Z) : Qc := Q2Qc (inject_Z z).
Definition pb := CParams Balanced 2 (Q2Qc (1 # 4)).
Theorem balanced_history_refuted :
  let A := D1 [q 0; q 1; q 2; q 3] in let B := D1 [q 10; q 11; q 12; q 13] in
  (exists r, cover_transform pb (after [Fit pb A; FitTransform pb B]) B = r /\ r <> cover_transform pb (after [Fit pb B]) B) /\
  after [FitTransform pb B] = None.
Proof. cbn zeta. split; [|reflexivity]. eexists. split; [reflexivity|]. vm_compute. easy. Qed.

Print Assumptions cover_history.
