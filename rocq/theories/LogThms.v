(** C97: the logs of interactive Mapper plots. *)
From Coq Require Import String.
From Verif Require Import Np NpFacts LogModel LogSpec.
Open Scope string_scope.
Open Scope list_scope.
Open Scope Z_scope.

Lemma append_assoc (a b c : string) : ((a ++ b) ++ c = a ++ b ++ c)%string.
Proof. induction a; cbn; congruence. Qed.
Lemma append_nil (a : string) : (a ++ "" = a)%string.
Proof. induction a; cbn; congruence. Qed.
Lemma join_concat l s : join_lines l s = String.concat line_end (l ++ [s]).
Proof.
  induction l as [|a l IH]; [reflexivity|]. cbn [join_lines fold_right app]. fold (join_lines l s). rewrite IH.
  destruct l; reflexivity.
Qed.
Lemma at_plot_len k f st : zlen (at_plot k f st) = zlen st.
Proof. revert k. induction st as [|p st IH]; intro k; [reflexivity|]. cbn [at_plot]. destruct (k =? 0); rewrite !zlen_cons; [reflexivity|now rewrite IH]. Qed.
Lemma at_plot_same k f st p : Znth st k = Some p -> Znth (at_plot k f st) k = Some (f p).
Proof.
  revert k. induction st as [|a st IH]; intros k H; [apply Znth_Some_lt in H; cbn in H; lia|]. cbn [at_plot]. destruct (Z.eqb_spec k 0) as [->|N].
  - rewrite Znth_0 in *. congruence.
  - pose proof (Znth_Some_lt _ _ _ H). rewrite Znth_cons in * by lia. now apply IH.
Qed.
Lemma at_plot_other k k' f st : k <> k' -> 0 <= k' -> Znth (at_plot k f st) k' = Znth st k'.
Proof.
  revert k k'. induction st as [|a st IH]; intros k k' N B; [reflexivity|]. cbn [at_plot]. destruct (Z.eqb_spec k 0) as [->|N0].
  - rewrite !Znth_cons by lia. reflexivity.
  - destruct (Z.eq_dec k' 0) as [->|N1]; [reflexivity|]. rewrite !Znth_cons by lia. apply IH; lia.
Qed.
Lemma step_len a st e : zlen (step a st e) = zlen st + match e with Open => 1 | _ => 0 end.
Proof.
  destruct e as [|k t t' [|l s|l s]]; cbn [step]; unfold on_exception, log; rewrite ?zlen_app, ?at_plot_len, ?zlen_map, ?at_plot_len, ?zlen_map, ?at_plot_len; try lia.
  reflexivity.
Qed.
Lemma run_len_aux a h : forall st, zlen (fold_left (step a) h st) = zlen st + opened h.
Proof.
  induction h as [|e h IH]; intro st; unfold opened in *; cbn [fold_left filter]; [cbn; lia|]. rewrite IH, step_len. destruct e; rewrite ?zlen_cons; lia.
Qed.
Lemma run_len a h : zlen (run a h) = opened h.
Proof. unfold run. rewrite run_len_aux. reflexivity. Qed.
(** What is added to the outputs of a plot by the changes of another one. *)
Lemma step_other a st e k p : Znth st k = Some p -> ~ changes k e ->
  Znth (step a st e) k = Some (MkPlot (rev (messages a e) ++ outputs p) (valid p)).
Proof.
  intros H N. pose proof (Znth_Some_lt _ _ _ H) as B. destruct e as [|k' t t' o]; cbn [step].
  - rewrite Znth_app1 by lia. rewrite H. now destruct p.
  - cbn in N. destruct o as [|l s|l s]; unfold on_exception, log.
    + rewrite at_plot_other, Znth_map, at_plot_other, H by lia. cbn [option_map messages rev app]. unfold emit, format, info_text. cbn [r_time r_level r_message r_traceback levelname].
      rewrite !append_assoc. reflexivity.
    + rewrite at_plot_other, Znth_map, at_plot_other, H by lia. cbn [option_map messages rev app]. unfold emit, format, error_text. cbn [r_time r_level r_message r_traceback levelname].
      rewrite join_concat, !append_assoc. reflexivity.
    + rewrite at_plot_other, Znth_map, Znth_map, at_plot_other, H by lia. cbn [option_map messages rev app]. unfold emit, format, error_text, info_text. cbn [r_time r_level r_message r_traceback levelname outputs valid].
      rewrite join_concat, !append_assoc. reflexivity.
Qed.
Lemma step_same a st k t t' o p : Znth st k = Some p ->
  Znth (step a st (Change k t t' o)) k = Some (MkPlot (rev (messages a (Change k t t' o))) (went_well (Change k t t' o))).
Proof.
  intro H. cbn [step]. assert (C : Znth (at_plot k clear_logs st) k = Some (clear_logs p)) by now apply at_plot_same.
  destruct o as [|l s|l s]; unfold on_exception, log.
  - rewrite (at_plot_same k _ _ (emit a (Rec t INFO "Updating figure..." None) (clear_logs p))); [|now rewrite Znth_map, C]. unfold emit, format, set_valid, clear_logs, info_text. unfold messages; cbn [option_map messages rev app went_well r_time r_level r_message r_traceback levelname outputs valid]. rewrite !append_assoc. reflexivity.
  - erewrite at_plot_same; [|rewrite Znth_map, C; reflexivity]. unfold emit, format, set_valid, clear_logs, error_text. unfold messages; cbn [option_map messages rev app went_well r_time r_level r_message r_traceback levelname outputs valid]. rewrite join_concat, !append_assoc. reflexivity.
  - erewrite at_plot_same; [|rewrite !Znth_map, C; reflexivity]. unfold emit, format, set_valid, clear_logs, error_text, info_text. unfold messages; cbn [option_map messages rev app went_well r_time r_level r_message r_traceback levelname outputs valid]. rewrite join_concat, !append_assoc. reflexivity.
Qed.
Lemma later a h : forall st k p, Znth st k = Some p -> Forall (fun e => ~ changes k e) h ->
  Znth (fold_left (step a) h st) k = Some (MkPlot (rev (concat (map (messages a) h)) ++ outputs p) (valid p)).
Proof.
  induction h as [|e h IH]; intros st k p H F; cbn [fold_left]; [cbn; now destruct p|]. inversion F as [|? ? N F']; subst.
  erewrite IH; [|apply step_other; eassumption|assumption]. cbn [map concat outputs valid]. rewrite rev_app_distr, app_assoc. reflexivity.
Qed.
(** The log of a plot: all messages since it was opened or since one of its parameters was last changed,
    newest first - those of this change and those of all other interactive plots.  The parameters
    are marked as valid exactly when that change went well. *)
Theorem log_spec : forall asctime before e after k,
  concerns k before e -> Forall (fun e' => ~ changes k e') after ->
  exists p, Znth (run asctime (before ++ e :: after)) k = Some p /\
    outputs p = rev (concat (map (messages asctime) (e :: after))) /\
    valid p = went_well e.
Proof.
  intros a before e after k C F. unfold run. rewrite fold_left_app. cbn [fold_left]. fold (run a before).
  assert (S : Znth (step a (run a before) e) k = Some (MkPlot (rev (messages a e)) (went_well e))).
  { destruct e as [|k' t t' o]; cbn in C.
    - cbn [step]. rewrite <- (run_len a) in C. subst k. rewrite Znth_app2 by lia. now rewrite Z.sub_diag.
    - destruct C as [-> B]. rewrite <- (run_len a) in B. destruct (Znth_ex (run a before) k B) as [p H]. eapply step_same; eassumption. }
  eexists. split; [apply (later a after _ k _ S F)|]. cbn [outputs valid map concat]. rewrite rev_app_distr. auto.
Qed.
(** One plot per call of plot_interactive, none is ever forgotten. *)
Theorem log_plots : forall asctime h, zlen (run asctime h) = opened h.
Proof. exact run_len. Qed.
(** With a single plot the log tells about the last change only: empty before the first one, and with
    an error exactly when the parameters are not marked as valid. *)
Theorem log_single_plot : forall asctime h, opened h = 1 -> (forall k t t' o, In (Change k t t' o) h -> k = 0) ->
  forall h' k t t' o, h = h' ++ [Change k t t' o] ->
  (exists p, opened h' = 1 /\ run asctime h = [p] /\ outputs p = rev (messages asctime (Change 0 t t' o)) /\
     (valid p = true <-> o = Updated)).
Proof.
  intros a h H1 HK h' k t t' o ->. assert (k = 0) as -> by (apply (HK k t t' o); apply in_or_app; right; now left).
  assert (O : opened h' = 1) by (unfold opened in *; rewrite filter_app, zlen_app in H1; cbn in H1; lia).
  destruct (log_spec a h' (Change 0 t t' o) [] 0 ltac:(cbn; lia) ltac:(constructor)) as (p & E & Q & V).
  exists p. split; [exact O|]. pose proof (run_len a (h' ++ [Change 0 t t' o])) as L. rewrite H1 in L. destruct (run a (h' ++ [Change 0 t t' o])) as [|p' [|? ?]] eqn:R.
  - cbn in L. lia.
  - cbn in E. injection E as ->. split; [reflexivity|]. split; [rewrite Q; cbn [map concat]; now rewrite app_nil_r|]. rewrite V. destruct o; cbn; split; congruence.
  - rewrite !zlen_cons in L. pose proof (zlen_nonneg l). lia.
Qed.
(** With two plots it does not: an error in the second shows up in the log of the first, whose own
    parameters are fine. *)
Theorem log_of_own_plot_refuted : forall asctime t first_lines last_line, exists h,
  Forall (fun e => match e with Change 0 _ _ o => o = Updated | _ => True end) h /\
  exists p, Znth (run asctime h) 0 = Some p /\ valid p = true /\ In (error_text (asctime t) first_lines last_line) (outputs p).
Proof.
  intros a t l s. exists [Open; Open; Change 1 t t (Refused l s)]. split; [repeat constructor|].
  destruct (log_spec a [] Open [Open; Change 1 t t (Refused l s)] 0 ltac:(cbn; lia)) as (p & E & Q & V).
  - repeat constructor; cbn; lia.
  - exists p. split; [exact E|]. split; [exact V|]. rewrite Q. cbn. auto.
Qed.
(** Nor is the log complete: a change clears the log of its own plot, with what it shows of the others. *)
Example log_example : forall p0 p1, run (fun _ => "12:00") [Open; Change 0 1 1 Updated; Open; Change 1 2 3 (Failed ["Traceback"] "ValueError: x"); Change 0 4 4 Updated] = [p0; p1] ->
  outputs p0 = [info_text "12:00" "Updating figure..."] /\
  outputs p1 = [info_text "12:00" "Updating figure..."; error_text "12:00" ["Traceback"] "ValueError: x"; info_text "12:00" "Updating figure..."] /\
  valid p0 = true /\ valid p1 = false.
Proof. intros p0 p1 H. vm_compute in H. injection H as <- <-. vm_compute. auto. Qed.
Print Assumptions log_spec.
Print Assumptions log_single_plot.
Print Assumptions log_of_own_plot_refuted.
