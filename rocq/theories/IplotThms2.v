(** C74: interactive Mapper plots: histories of changes. *)
From Coq Require Import Ascii String.
From Verif Require Import Np NpFacts Fl FlFacts ColorTypes ColorModel MplotTypes MplotModel IplotTypes IplotModel IplotSpec IplotThms.
Open Scope Z_scope.

Lemma node_statistics_cols m els f M : get_node_statistics m els f = Ok M -> m_cols M = m_cols m.
Proof. unfold get_node_statistics. destruct (mapM _ els) as [rows|e]; cbn [bind]; [|discriminate]. intros [= <-]. reflexivity. Qed.
Lemma validate_static k n_nodes n_data cd f stat r : validate_color_kwargs k n_data cd f stat true = Ok r ->
  validate_color_kwargs n_nodes n_data cd f stat false = Ok r /\ exists m names g, r = (m, names, VCall g).
Proof.
  unfold validate_color_kwargs. destruct (checked_color_data n_data cd) as [d|e]; cbn [bind]; [|discriminate]. destruct stat as [|g|a|]; cbn [checked_statistic bind]; try discriminate.
  - destruct (apply_color_features d f) as [[a nn]|e]; cbn [bind]; [|discriminate]. destruct (reshape_cols a); cbn [bind]; [|discriminate]. intros [= <-]. split; [reflexivity|]. eauto.
  - destruct (apply_color_features d f) as [[a nn]|e]; cbn [bind]; [|discriminate]. destruct (reshape_cols a); cbn [bind]; [|discriminate]. intros [= <-]. split; [reflexivity|]. eauto.
Qed.

Section Plotter.
Variable fz : Z -> string.
Variable fmt : shown -> string.
Variable viridis : colorscale_t.
Variable layout : mgraph -> Z -> res (list (list Qc)).
Variable run : params -> res mgraph.
Variable flush : bool.
Variable dim : Z.
Variable n : option Z.
Variable scale : Qc.
Notation handler := (on_parameter_change fz fmt layout run flush dim n scale).
Notation change := (change fz fmt layout run flush dim n scale).
Notation changes := (changes fz fmt layout run flush dim n scale).
Notation iplot := (interactive_plot fz fmt viridis layout run dim n scale).
Notation splot pipe := (plot_static_mapper_graph fz fmt viridis layout (run pipe)).

Lemma changes_snoc s st h e : changes s st (h ++ [e]) = change s (changes s st h) e.
Proof. revert st. induction h as [|e' h IH]; intros st; [reflexivity|]. cbn [app IplotModel.changes]. apply IH. Qed.

(** ** Parameters *)
Definition from_params (d : params) (s : session) : Prop :=
  s_cover s = filter (fun kv : string * pval => String.prefix "cover__" (fst kv)) d /\
  s_cluster s = filter (fun kv : string * pval => String.prefix "clusterer__" (fst kv)) d /\
  s_nerve s = filter (fun kv : string * pval => String.eqb (fst kv) "min_intersection" || String.eqb (fst kv) "contract_nodes") d.
Definition params_inv (d : params) (h : list (string * pval)) (st : istate) : Prop :=
  (forall k v, dget d k = Some v -> eb k v = true -> exists w, dget (i_widgets st) k = Some w /\ shown_value v k h w /\ same_type v w) /\
  (forall k w, dget (i_widgets st) k = Some w -> exists v, dget d k = Some v /\ eb k v = true) /\
  map fst (i_pipe st) = map fst d /\
  forall k v, dget d k = Some v -> dget (i_pipe st) k = if pb k v then dget (i_widgets st) k else Some v.

Lemma handler_params s st : i_widgets (handler s st) = i_widgets st /\ i_pipe (handler s st) = fst (set_all s (i_widgets st) (i_pipe st)).
Proof.
  unfold on_parameter_change. destruct (set_all s (i_widgets st) (i_pipe st)) as [pipe ok]. cbn [fst]. destruct ok; cbn [negb]; [|auto]. destruct (run pipe); [|auto].
  destruct (calculate_graph_data _ _ _ _ _ _ _ _ _) as [[tr colors]|]; [|auto]. destruct (match s_scale s with None => _ | Some _ => _ end); [|auto]. cbn zeta. destruct (1 <? m_cols colors); [|auto]. destruct (get_column_color_buttons _ _ _ _ _ _); auto.
Qed.

Lemma params_step d s st h e : dict d -> from_params d s -> params_inv d h st -> params_inv d (h ++ [e]) (change s st e).
Proof.
  intros D [S1 [S2 S3]] [I1 [I2 [I3 I4]]]. destruct e as [k0 w0]. unfold IplotModel.change. destruct (dget (i_widgets st) k0) as [old|] eqn:E0.
  - destruct (accepts old w0) eqn:A; cbn [andb].
    + apply accepts_iff in A.
      assert (N1 : forall k v, dget d k = Some v -> eb k v = true -> exists w, dget (dset (i_widgets st) k0 w0) k = Some w /\ shown_value v k (h ++ [(k0, w0)]) w /\ same_type v w).
      { intros k v Ek Eb. destruct (I1 k v Ek Eb) as [w [Ew [Sw Tw]]]. rewrite dget_dset, E0. destruct (String.eqb_spec k k0) as [->|N].
        - exists w0. assert (w = old) by congruence. subst w. split; [reflexivity|]. split; [eapply shown_change; eassumption|eapply same_type_trans; eassumption].
        - exists w. split; [assumption|]. split; [apply shown_other; [assumption|congruence]|assumption]. }
      assert (N2 : forall k w, dget (dset (i_widgets st) k0 w0) k = Some w -> exists v, dget d k = Some v /\ eb k v = true).
      { intros k w Ew. rewrite dget_dset, E0 in Ew. destruct (String.eqb_spec k k0) as [->|N]; [now apply (I2 _ old)|now apply (I2 _ w)]. }
      destruct (pval_eqb old w0) eqn:Q; cbn [negb].
      * apply pval_eqb_iff in Q. subst w0. assert (U : forall k, dget (dset (i_widgets st) k0 old) k = dget (i_widgets st) k) by (intros k; rewrite dget_dset, E0; destruct (String.eqb_spec k k0) as [->|N]; congruence).
        split; [|split; [|split]]; try assumption. intros k v Ek Eb. destruct (N1 k v Ek Eb) as [w H]. rewrite U in H. now exists w.
      * match goal with |- params_inv _ _ (handler s ?x) => set (st1 := x) end. destruct (handler_params s st1) as [HW HP].
        destruct (set_all_ok d s (i_widgets st1) (i_pipe st1) D S1 S2 S3 I3) as [pipe' [ES [K H]]]; [intros k v Ek Eb; destruct (N1 k v Ek Eb) as [w [Ew _]]; now exists w|].
        rewrite ES in HP. cbn [fst] in HP. unfold params_inv. rewrite HW, HP. split; [exact N1|]. split; [exact N2|]. split; [exact K|]. intros k v Ek. rewrite (H k v Ek). destruct (pb k v) eqn:P; [reflexivity|]. cbn [i_pipe st1]. rewrite (I4 k v Ek), P. reflexivity.
    + split; [|split; [|split]]; try assumption. intros k v Ek Eb. destruct (I1 k v Ek Eb) as [w [Ew [Sw Tw]]]. exists w. split; [assumption|]. split; [|assumption]. destruct (String.eqb_spec k0 k) as [->|N]; [|now apply shown_other].
      assert (w = old) by congruence. subst w. apply shown_bad; [assumption|]. intros T. apply accepts_iff in T. congruence.
  - split; [|split; [|split]]; try assumption. intros k v Ek Eb. destruct (I1 k v Ek Eb) as [w [Ew [Sw Tw]]]. exists w. split; [assumption|]. split; [|assumption]. apply shown_other; [assumption|]. intros ->. congruence.
Qed.

Lemma iplot_inv d n_data cd f stat pp s st0 : iplot d n_data cd f stat pp = Ok (s, st0) ->
  from_params d s /\ exists g m names vs tr M fig, run d = Ok g /\ validate_color_kwargs (zlen (g_nodes g)) n_data cd f stat true = Ok (m, names, vs) /\
    calculate_graph_data fz fmt layout g m vs dim n scale = Ok (tr, M) /\ produce_static_figure fmt viridis tr M names dim n pp = Ok fig /\
    s_color s = m /\ s_names s = names /\ s_stat s = vs /\
    s_scale s = (if dim =? 3 then match f_bg fig, pp_bg pp with BgWhite, _ => None | _, Some _ => None | _, None => Some (f_scale fig) end else None) /\
    st0 = IState (widgets_of (s_cover s) ++ widgets_of (s_cluster s) ++ widgets_of (s_nerve s)) d g M fig true.
Proof.
  unfold interactive_plot. destruct (run d) as [g|]; cbn [bind]; [|discriminate]. destruct (validate_color_kwargs _ _ _ _ _ _) as [[[m names] vs]|] eqn:EV; cbn [bind]; [|discriminate].
  destruct (calculate_graph_data _ _ _ _ _ _ _ _ _) as [[tr M]|] eqn:EC; cbn [bind]; [|discriminate]. destruct (produce_static_figure _ _ _ _ _ _ _ _) as [fig|] eqn:EF; cbn [bind]; [|discriminate]. intros [= <- <-]. split; [split; [reflexivity|split; reflexivity]|].
  exists g, m, names, vs, tr, M, fig. split; [reflexivity|]. split; [assumption|]. split; [assumption|]. split; [assumption|]. split; [reflexivity|]. split; [reflexivity|]. split; [reflexivity|]. split; reflexivity.
Qed.
Lemma params_hold d n_data cd f stat pp s st0 h : dict d -> iplot d n_data cd f stat pp = Ok (s, st0) -> params_inv d h (changes s st0 h).
Proof.
  intros D E. destruct (iplot_inv _ _ _ _ _ _ _ _ E) as [FP [g [m [names [vs [tr [M [fig [_ [_ [_ [_ [_ [_ [_ [_ ->]]]]]]]]]]]]]]]].
  induction h as [|e h IH] using rev_ind; [|rewrite changes_snoc; now apply params_step]. cbn [IplotModel.changes]. destruct FP as [S1 [S2 S3]]. rewrite S1, S2, S3. unfold params_inv. cbn [i_widgets i_pipe]. pose proof (fun k v => widgets_get d k v D) as WG.
  split; [|split; [|split]].
  - intros k v Ek Eb. exists v. split; [now apply WG|]. split; [constructor|]. apply typed_iff. unfold eb in Eb. now apply andb_true_iff in Eb.
  - intros k w Ew. apply WG in Ew. now exists w.
  - reflexivity.
  - intros k v Ek. destruct (pb k v) eqn:P; [|assumption]. rewrite Ek. symmetry. apply WG. split; [assumption|now apply pb_eb].
Qed.

(** After any changes the pipeline has the values that the widgets show. *)
Theorem interactive_params d n_data cd f stat pp s st0 h : dict d ->
  iplot d n_data cd f stat pp = Ok (s, st0) -> updated d h (i_pipe (changes s st0 h)).
Proof.
  intros D E. destruct (params_hold _ _ _ _ _ _ _ _ h D E) as [I1 [I2 [I3 I4]]]. split; [assumption|]. intros k v v' V V'. apply (dict_dget d k v D) in V.
  assert (D' : dict (i_pipe (changes s st0 h))) by (unfold dict; now rewrite I3). apply (dict_dget _ k v' D') in V'. rewrite (I4 k v V) in V'. split.
  - intros P. apply (passed_iff d k v D V) in P. rewrite P in V'. destruct (I1 k v V (pb_eb _ _ P)) as [w [Ew [Sw _]]]. congruence.
  - intros P. destruct (pb k v) eqn:Q; [|congruence]. exfalso. apply P. now apply (passed_iff d k v D V).
Qed.

(** ** Figures *)
Definition result_of (s : session) (st0 : istate) (pipe : params) (g : mgraph) (M : mat) (fig : mfigure) : Prop :=
  run pipe = Ok g /\ exists tr bgc menu, calculate_graph_data fz fmt layout g (s_color s) (s_stat s) dim n scale = Ok (tr, M) /\
    match s_scale s with
    | None => bgc = f_bg (i_fig st0)
    | Some cs => exists c0 mn mx l, mcol M 0 = Ok c0 /\ np_min c0 = Ok mn /\ np_max c0 = Ok mx /\ hex_colors_for_vals c0 mn mx cs = Ok l /\ bgc = BgNodes l
    end /\
    (if 1 <? m_cols M then rmap Some (get_column_color_buttons fmt M (t_text tr) (s_scale s) n (s_names s)) else Ok None) = Ok menu /\
    fig = MFigure (t_edges tr) (t_pos tr) (t_sizes tr) (t_sizeref tr) (t_colors tr) (f_scale (i_fig st0)) (t_text tr) bgc menu.
Definition fig_inv (s : session) (st0 st : istate) : Prop :=
  f_scale (i_fig st) = f_scale (i_fig st0) /\ (m_cols (s_color s) <= 1 -> f_menu (i_fig st) = None) /\ (s_scale s = None -> f_bg (i_fig st) = f_bg (i_fig st0)).
Lemma result_unique s st0 pipe g M fig g' M' fig' : result_of s st0 pipe g M fig -> result_of s st0 pipe g' M' fig' -> g = g' /\ M = M' /\ fig = fig'.
Proof.
  intros [R [tr [bgc [menu [C [B [Mn ->]]]]]]] [R' [tr' [bgc' [menu' [C' [B' [Mn' ->]]]]]]]. rewrite R in R'. injection R' as <-. rewrite C in C'. injection C' as <- <-. split; [reflexivity|]. split; [reflexivity|].
  rewrite Mn in Mn'. injection Mn' as <-. assert (bgc = bgc') as ->; [|reflexivity]. destruct (s_scale s); [|congruence]. destruct B as [c0 [mn [mx [l [B1 [B2 [B3 [B4 ->]]]]]]]], B' as [c0' [mn' [mx' [l' [B1' [B2' [B3' [B4' ->]]]]]]]]. congruence.
Qed.
Definition stat_call (s : session) : Prop := exists g, s_stat s = VCall g.
Lemma calc_cols s g tr M : stat_call s -> calculate_graph_data fz fmt layout g (s_color s) (s_stat s) dim n scale = Ok (tr, M) -> m_cols M = m_cols (s_color s).
Proof.
  intros [st ->]. unfold calculate_graph_data. destruct (get_node_statistics _ _ _) as [M'|] eqn:E; cbn [bind]; [|discriminate]. apply node_statistics_cols in E. intros H.
  destruct (set_node_sizeref _ _); cbn [bind] in H; [|discriminate]. destruct (mcol M' 0); cbn [bind] in H; [|discriminate]. destruct (negb _); [discriminate|]. destruct (layout g dim); cbn [bind] in H; [|discriminate]. destruct (mapM _ _); cbn [bind] in H; [|discriminate]. destruct (mapM _ _); cbn [bind] in H; [|discriminate]. injection H as _ <-. assumption.
Qed.

Lemma handler_fig s st0 st pipe : stat_call s -> fig_inv s st0 st -> set_all s (i_widgets st) (i_pipe st) = (pipe, true) ->
  fig_inv s st0 (handler s st) /\
  (forall g M fig, result_of s st0 pipe g M fig -> i_valid (handler s st) = true) /\
  (i_valid (handler s st) = true -> result_of s st0 pipe (i_graph (handler s st)) (i_summ (handler s st)) (i_fig (handler s st))).
Proof.
  intros SC [F1 [F2 F3]] ES. unfold on_parameter_change. rewrite ES. cbn [negb]. unfold result_of.
  destruct (run pipe) as [g|e] eqn:ER; [|split; [split; [assumption|split; assumption]|split; [intros g M fig [X _]; discriminate|discriminate]]].
  destruct (calculate_graph_data fz fmt layout g (s_color s) (s_stat s) dim n scale) as [[tr M]|e] eqn:EC; [|split; [split; [assumption|split; assumption]|split; [intros g' M fig [[= <-] [tr [bgc [menu [X _]]]]]; rewrite EC in X; discriminate|discriminate]]].
  pose proof (calc_cols _ _ _ _ SC EC) as MC.
  destruct (match s_scale s with None => Ok (i_fig st) | Some cs => do c0 <- mcol M 0; do mn <- np_min c0; do mx <- np_max c0; rmap (with_bg (i_fig st)) (hex_colors_for_vals c0 mn mx cs) end) as [fig|e] eqn:EB.
  2:{ split; [split; [assumption|split; assumption]|]. split; [|discriminate]. intros g' M' fig [[= <-] [tr' [bgc [menu [X [B _]]]]]]. rewrite EC in X. injection X as <- <-. destruct (s_scale s); [|discriminate]. destruct B as [c0 [mn [mx [l [B1 [B2 [B3 [B4 _]]]]]]]]. rewrite B1 in EB. cbn [bind] in EB. rewrite B2 in EB. cbn [bind] in EB. rewrite B3 in EB. cbn [bind] in EB. rewrite B4 in EB. discriminate. }
  assert (HF : f_scale fig = f_scale (i_fig st0) /\ f_menu fig = f_menu (i_fig st) /\ (s_scale s = None -> f_bg fig = f_bg (i_fig st0)) /\
    match s_scale s with None => f_bg fig = f_bg (i_fig st0) | Some cs => exists c0 mn mx l, mcol M 0 = Ok c0 /\ np_min c0 = Ok mn /\ np_max c0 = Ok mx /\ hex_colors_for_vals c0 mn mx cs = Ok l /\ f_bg fig = BgNodes l end).
  { destruct (s_scale s) as [cs|]; [|injection EB as <-; auto]. destruct (mcol M 0) as [c0|]; cbn [bind] in EB; [|discriminate]. destruct (np_min c0) as [mn|] eqn:E1; cbn [bind] in EB; [|discriminate]. destruct (np_max c0) as [mx|] eqn:E2; cbn [bind] in EB; [|discriminate]. destruct (hex_colors_for_vals c0 mn mx cs) as [l|] eqn:E3; cbn [rmap bind] in EB; [|discriminate]. injection EB as <-. cbn [with_bg f_scale f_menu f_bg]. split; [assumption|]. split; [reflexivity|]. split; [discriminate|]. exists c0, mn, mx, l. auto. }
  destruct HF as [H1 [H2 [H3 H4]]]. cbn zeta. destruct (Z.ltb_spec 1 (m_cols M)) as [L|L].
  - destruct (get_column_color_buttons fmt M (t_text tr) (s_scale s) n (s_names s)) as [menu|e] eqn:EM.
    + cbn [i_fig i_valid i_graph i_summ]. split; [|split; [reflexivity|]].
      * split; [exact H1|]. split; [lia|exact H3].
      * intros _. split; [reflexivity|]. exists tr, (f_bg fig), (Some menu). split; [assumption|]. split; [exact H4|]. replace (1 <? m_cols M) with true by (symmetry; apply Z.ltb_lt; lia). rewrite EM. split; [reflexivity|]. unfold with_menu, with_traces. cbn [f_edges f_pos f_sizes f_sizeref f_colors f_scale f_text f_bg f_menu]. now rewrite H1.
    + cbn [i_fig i_valid i_graph i_summ]. split; [|split; [|discriminate]].
      * destruct flush; [|split; [assumption|split; assumption]]. split; [exact H1|]. split; [lia|exact H3].
      * intros g' M' fig' [[= <-] [tr' [bgc [menu [X [B [Mn _]]]]]]]. rewrite EC in X. injection X as <- <-. replace (1 <? m_cols M) with true in Mn by (symmetry; apply Z.ltb_lt; lia). rewrite EM in Mn. discriminate.
  - cbn [i_fig i_valid i_graph i_summ]. assert (FM : f_menu fig = None) by (rewrite H2; apply F2; lia). split; [|split; [reflexivity|]].
    + split; [exact H1|]. split; [intros _; exact FM|exact H3].
    + intros _. split; [reflexivity|]. exists tr, (f_bg fig), None. split; [assumption|]. split; [exact H4|]. replace (1 <? m_cols M) with false by (symmetry; apply Z.ltb_ge; lia). split; [reflexivity|]. unfold with_traces. cbn [f_edges f_pos f_sizes f_sizeref f_colors f_scale f_text f_bg f_menu]. now rewrite H1, FM.
Qed.

(** The initial figure is a result. *)
Lemma produce_inv tr M names pp fig : produce_static_figure fmt viridis tr M names dim n pp = Ok fig ->
  exists bgc lscale menu, fig = MFigure (t_edges tr) (t_pos tr) (t_sizes tr) (t_sizeref tr) (t_colors tr) (match pp_scale pp with Some s => s | None => viridis end) (t_text tr) bgc menu /\
   (if 1 <? m_cols M then rmap Some (get_column_color_buttons fmt M (t_text tr) lscale n names) else Ok None) = Ok menu /\
   match pp_bg pp with
   | Some u => bgc = BgUser u /\ lscale = None
   | None => if dim =? 3 then exists c0 mn mx, mcol M 0 = Ok c0 /\ np_min c0 = Ok mn /\ np_max c0 = Ok mx /\
               match hex_colors_for_vals c0 mn mx (match pp_scale pp with Some s => s | None => viridis end) with
               | Ok l => bgc = BgNodes l /\ lscale = Some (match pp_scale pp with Some s => s | None => viridis end)
               | Err _ => bgc = BgWhite /\ lscale = None end
             else bgc = BgNone /\ lscale = None
   end.
Proof.
  unfold produce_static_figure. set (cs := match pp_scale pp with Some s => s | None => viridis end).
  destruct (match pp_bg pp with Some s => Ok (BgUser s, None) | None => _ end) as [[bgc ls]|] eqn:E; cbn [bind]; [|discriminate]. destruct (if 1 <? m_cols M then _ else _) as [menu|] eqn:EM; cbn [bind]; [|discriminate]. intros [= <-]. exists bgc, ls, menu. split; [reflexivity|]. split; [assumption|].
  destruct (pp_bg pp); [injection E as <- <-; auto|]. destruct (dim =? 3); [|injection E as <- <-; auto]. destruct (mcol M 0) as [c0|]; cbn [bind] in E; [|discriminate]. destruct (np_min c0) as [mn|] eqn:E1; cbn [bind] in E; [|discriminate]. destruct (np_max c0) as [mx|] eqn:E2; cbn [bind] in E; [|discriminate].
  exists c0, mn, mx. split; [reflexivity|]. split; [assumption|]. split; [assumption|]. destruct (hex_colors_for_vals c0 mn mx cs); injection E as <- <-; auto.
Qed.
Lemma init_result d n_data cd f stat pp s st0 : iplot d n_data cd f stat pp = Ok (s, st0) ->
  stat_call s /\ fig_inv s st0 st0 /\ result_of s st0 d (i_graph st0) (i_summ st0) (i_fig st0).
Proof.
  intros E. destruct (iplot_inv _ _ _ _ _ _ _ _ E) as [_ [g [m [names [vs [tr [M [fig [ER [EV [EC [EF [E1 [E2 [E3 [E4 ->]]]]]]]]]]]]]]]]. cbn [i_graph i_summ i_fig].
  destruct (validate_static _ 0 _ _ _ _ _ EV) as [_ [m' [names' [st [= <- <- ->]]]]]. assert (SC : stat_call s) by (exists st; exact E3). split; [exact SC|].
  destruct (produce_inv _ _ _ _ _ EF) as [bgc [ls [menu [Ef [EM EB]]]]]. assert (MC : m_cols M = m_cols (s_color s)) by (eapply calc_cols; [exact SC|]; rewrite E1, E3; eassumption).
  split. { split; [reflexivity|]. split; [|auto]. intros L. cbn [i_fig]. rewrite Ef. cbn [f_menu]. replace (1 <? m_cols M) with false in EM by (symmetry; apply Z.ltb_ge; lia). now injection EM. }
  subst fig. cbn [f_bg f_scale] in E4. split; [exact ER|]. exists tr, bgc, menu. rewrite E1, E2, E3. split; [assumption|]. cbn [i_fig f_bg f_scale]. rewrite E4. clear E4.
  destruct (pp_bg pp) as [u|].
  - destruct EB as [-> ->]. destruct (dim =? 3); auto.
  - destruct (dim =? 3).
    + destruct EB as [c0 [mn [mx [B1 [B2 [B3 B4]]]]]]. destruct (hex_colors_for_vals c0 mn mx _) as [l|] eqn:EH; destruct B4 as [-> ->]; [|auto]. split; [exists c0, mn, mx, l; auto|auto].
    + destruct EB as [-> ->]. auto.
Qed.

Lemma history_inv d n_data cd f stat pp s st0 h : dict d -> iplot d n_data cd f stat pp = Ok (s, st0) ->
  let st := changes s st0 h in
  fig_inv s st0 st /\ (i_valid st = true -> result_of s st0 (i_pipe st) (i_graph st) (i_summ st) (i_fig st)).
Proof.
  intros D E. destruct (init_result _ _ _ _ _ _ _ _ E) as [SC [F0 R0]]. destruct (iplot_inv _ _ _ _ _ _ _ _ E) as [[S1 [S2 S3]] X]. cbn zeta. induction h as [|[k w] h [IF IR]] using rev_ind.
  - cbn [IplotModel.changes]. split; [assumption|]. intros _. destruct X as [g [m [names [vs [tr [M [fig [_ [_ [_ [_ [_ [_ [_ [_ E0]]]]]]]]]]]]]]]. rewrite E0 at 2. cbn [i_pipe]. exact R0.
  - rewrite changes_snoc. pose proof (params_hold _ _ _ _ _ _ _ _ h D E) as [I1 [I2 [I3 I4]]]. unfold IplotModel.change. destruct (dget (i_widgets (changes s st0 h)) k) as [old|] eqn:E0; [|split; assumption].
    destruct (accepts old w && negb (pval_eqb old w)) eqn:A; [|split; assumption]. match goal with |- context [handler s ?x] => set (st1 := x) end.
    destruct (set_all_ok d s (i_widgets st1) (i_pipe st1) D S1 S2 S3 I3) as [pipe' [ES [K H]]].
    { intros k' v Ek Eb. destruct (I1 k' v Ek Eb) as [w' [Ew _]]. cbn [st1 i_widgets]. rewrite dget_dset, E0. destruct (String.eqb k' k); eauto. }
    destruct (handler_fig s st0 st1 pipe' SC IF ES) as [H1 [_ H2]]. split; [exact H1|]. intros V. destruct (handler_params s st1) as [_ HP]. rewrite HP, ES. cbn [fst]. now apply H2.
Qed.
End Plotter.
