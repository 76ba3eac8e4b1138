(** C74: interactive Mapper plots agree with static ones. *)
From Coq Require Import Ascii String.
From Verif Require Import Np NpFacts Fl FlFacts ColorTypes ColorModel ColorSpec MplotTypes MplotModel MplotSpec MplotThms2 MplotThms3 MplotThms4 MplotThms5 MplotThms6 IplotTypes IplotModel IplotSpec IplotThms IplotThms2.
Open Scope Z_scope.

Lemma same_type_dec a b : same_type a b \/ ~ same_type a b.
Proof. destruct (accepts a b) eqn:E; [left|right]; rewrite <- accepts_iff; congruence. Qed.
Lemma shown_snoc init k h k' w v : shown_value init k (h ++ [(k', w)]) v ->
  exists o, shown_value init k h o /\ ((k' = k /\ same_type o w /\ v = w) \/ (k' = k /\ ~ same_type o w /\ v = o) \/ (k' <> k /\ v = o)).
Proof.
  intros H. inversion H as [E|h' v0 w0 H0 T0 E|h' v0 w0 H0 T0 E|h' v0 k0 w0 H0 T0 E]; subst; [destruct h; discriminate|..]; apply app_inj_tail in E; destruct E as [-> E]; injection E; intros; subst; eauto 8.
Qed.
Lemma shown_nil init k v : shown_value init k [] v -> v = init.
Proof. intros H. inversion H as [E|h' v0 w0 H0 T0 E|h' v0 w0 H0 T0 E|h' v0 k0 w0 H0 T0 E]; [reflexivity|destruct h'; discriminate..]. Qed.
Lemma shown_unique init k h v v' : shown_value init k h v -> shown_value init k h v' -> v = v'.
Proof.
  revert v v'. induction h as [|[k' w] h IH] using rev_ind; intros v v' H H'.
  - apply shown_nil in H, H'. congruence.
  - apply shown_snoc in H, H'. destruct H as [o [H C]], H' as [o' [H' C']]. assert (o = o') by now apply IH. subst o'. destruct C as [[? [? ?]]|[[? [? ?]]|[? ?]]], C' as [[? [? ?]]|[[? [? ?]]|[? ?]]]; subst; try reflexivity; try contradiction.
Qed.
Lemma dict_ext d d' : dict d -> map fst d = map fst d' -> (forall k, dget d k = dget d' k) -> d = d'.
Proof.
  revert d'. induction d as [|[k v] d IH]; intros [|[k' v'] d'] D E H; try discriminate; [reflexivity|]. cbn [map fst] in E. injection E as -> E. pose proof (H k') as Hk. cbn [dget] in Hk. rewrite String.eqb_refl in Hk. injection Hk as <-. f_equal.
  unfold dict in D. cbn [map fst] in D. inversion D as [|? ? N D']; subst. apply IH; [assumption|assumption|]. intros q. specialize (H q). cbn [dget] in H. destruct (String.eqb_spec q k') as [Eq|_]; [|assumption]. rewrite Eq.
  assert (X : forall e, map fst e = map fst d -> dget e k' = None).
  { intros e Ee. destruct (dget e k') as [x|] eqn:Ex; [|reflexivity]. exfalso. apply N. rewrite <- Ee. apply dget_In in Ex. apply in_map_iff. now exists (k', x). }
  rewrite (X d), (X d'); auto.
Qed.

Section Plotter.
Variable fz : Z -> string.
Variable fmt : shown -> string.
Variable viridis : colorscale_t.
Variable layout : mgraph -> Z -> res (list (list Qc)).
Variable run : params -> res mgraph.
Variable flush : bool.
Variable dim : Z.
Variable n : option Z.
Variable scale : Qc.
Notation changes := (changes fz fmt layout run flush dim n scale).
Notation iplot := (interactive_plot fz fmt viridis layout run dim n scale).
Notation splot pipe := (plot_static_mapper_graph fz fmt viridis layout (run pipe)).
Notation result_of := (result_of fz fmt layout run dim n scale).

Lemma static_inv pipe n_data cd f stat pp fig : splot pipe n_data cd f stat dim n scale pp = Ok fig ->
  exists g m names vs tr M, run pipe = Ok g /\ validate_color_kwargs (zlen (g_nodes g)) n_data cd f stat false = Ok (m, names, vs) /\
    calculate_graph_data fz fmt layout g m vs dim n scale = Ok (tr, M) /\ produce_static_figure fmt viridis tr M names dim n pp = Ok fig.
Proof.
  unfold plot_static_mapper_graph. destruct (run pipe) as [g|]; cbn [bind]; [|discriminate]. destruct (validate_color_kwargs _ _ _ _ _ _) as [[[m names] vs]|] eqn:EV; cbn [bind]; [|discriminate].
  destruct (calculate_graph_data _ _ _ _ _ _ _ _ _) as [[tr M]|] eqn:EC; cbn [bind]; [|discriminate]. intros EF. exists g, m, names, vs, tr, M. auto.
Qed.
Lemma static_of_result d n_data cd f stat pp s st0 pipe g M fig : iplot d n_data cd f stat pp = Ok (s, st0) -> result_of s st0 pipe g M fig ->
  (f_bg (i_fig st0) <> BgWhite -> splot pipe n_data cd f stat dim n scale pp = Ok fig) /\
  (f_bg (i_fig st0) = BgWhite -> f_bg fig = BgWhite /\ splot pipe n_data cd f stat dim n scale (PParams (Some "white"%string) (pp_scale pp)) =
     Ok (MFigure (f_edges fig) (f_pos fig) (f_sizes fig) (f_sizeref fig) (f_colors fig) (f_scale fig) (f_text fig) (BgUser "white") (f_menu fig))).
Proof.
  intros E [R [tr [bgc [menu [EC [EB [EM ->]]]]]]]. destruct (iplot_inv _ _ _ _ _ _ _ _ _ _ _ _ _ _ _ _ E) as [_ [g0 [m [names [vs [tr0 [M0 [fig0 [ER [EV [EC0 [EF [E1 [E2 [E3 [E4 ->]]]]]]]]]]]]]]]]. cbn [i_fig] in *.
  destruct (validate_static _ (zlen (g_nodes g)) _ _ _ _ _ EV) as [EVS _]. unfold plot_static_mapper_graph. rewrite R. cbn [bind]. rewrite EVS. cbn [bind]. rewrite <- E1, <- E3, EC. cbn [bind]. unfold produce_static_figure.
  destruct (produce_inv _ _ _ _ _ _ _ _ _ EF) as [bg0 [ls [menu0 [-> [_ EB0]]]]]. cbn [f_bg f_scale i_fig] in *. rewrite <- E2. split.
  - intros NW. destruct (pp_bg pp) as [u|].
    + destruct EB0 as [-> _]. assert (SS : s_scale s = None) by (rewrite E4; destruct (dim =? 3); reflexivity). rewrite SS in *. cbn [bind]. rewrite EM. cbn [bind]. now rewrite EB.
    + destruct (dim =? 3).
      * destruct EB0 as [c0' [mn' [mx' [_ [_ [_ X]]]]]]. destruct (hex_colors_for_vals c0' mn' mx' _); destruct X as [-> _]; [|congruence]. rewrite E4 in *. destruct EB as [c0 [mn [mx [l [B1 [B2 [B3 [B4 ->]]]]]]]]. rewrite B1. cbn [bind]. rewrite B2. cbn [bind]. rewrite B3. cbn [bind]. rewrite B4. cbn [bind]. rewrite EM. reflexivity.
      * destruct EB0 as [-> _]. rewrite E4 in *. cbn [bind]. rewrite EM. cbn [bind]. now rewrite EB.
  - intros W. subst bg0. assert (SS : s_scale s = None) by (rewrite E4; destruct (dim =? 3); [destruct (pp_bg pp)|]; reflexivity). rewrite SS in *. split; [exact EB|]. cbn [pp_bg pp_scale bind]. rewrite EM. reflexivity.
Qed.
Lemma result_of_static d n_data cd f stat pp s st0 pipe fig : iplot d n_data cd f stat pp = Ok (s, st0) ->
  f_bg (i_fig st0) <> BgWhite -> splot pipe n_data cd f stat dim n scale pp = Ok fig -> f_bg fig <> BgWhite -> exists g M, result_of s st0 pipe g M fig.
Proof.
  intros E NW ES NW'. destruct (static_inv _ _ _ _ _ _ _ ES) as [g [m [names [vs [tr [M [R [EV [EC EF]]]]]]]]]. exists g, M.
  destruct (iplot_inv _ _ _ _ _ _ _ _ _ _ _ _ _ _ _ _ E) as [_ [g0 [m0 [names0 [vs0 [tr0 [M0 [fig0 [_ [EV0 [EC0 [EF0 [E1 [E2 [E3 [E4 ->]]]]]]]]]]]]]]]]. destruct (validate_static _ (zlen (g_nodes g)) _ _ _ _ _ EV0) as [EVS _]. rewrite EV in EVS. injection EVS as -> -> ->. cbn [i_fig] in *.
  destruct (produce_inv _ _ _ _ _ _ _ _ _ EF) as [bgc [ls [menu [-> [EM EB]]]]]. destruct (produce_inv _ _ _ _ _ _ _ _ _ EF0) as [bg0 [ls0 [menu0 [-> [_ EB0]]]]]. cbn [f_bg f_scale] in *.
  split; [assumption|]. exists tr, bgc, menu. rewrite E1, E2, E3. split; [assumption|]. cbn [i_fig f_bg f_scale]. rewrite E4. clear E4. destruct (pp_bg pp) as [u|].
  - destruct EB0 as [-> _], EB as [-> ->]. destruct (dim =? 3); auto.
  - destruct (dim =? 3).
    + destruct EB0 as [c0' [mn' [mx' [_ [_ [_ X]]]]]]. destruct (hex_colors_for_vals c0' mn' mx' _); destruct X as [-> _]; [|congruence]. destruct EB as [c0 [mn [mx [B1 [B2 [B3 B4]]]]]]. destruct (hex_colors_for_vals c0 mn mx _) as [l'|] eqn:EH; destruct B4 as [-> ->]; [|congruence]. split; [exists c0, mn, mx, l'; auto|auto].
    + destruct EB0 as [-> _], EB as [-> ->]. auto.
Qed.

(** After any changes, if the validation box is ticked, graph_ is the graph of the
    pipeline as it is, and the figure is that of a static plot with this pipeline.  If
    the labels of the first figure were white because of failing, they stay white. *)
Theorem interactive_static d n_data cd f stat pp s st0 h : dict d ->
  iplot d n_data cd f stat pp = Ok (s, st0) -> let st := changes s st0 h in
  i_valid st = true ->
  run (i_pipe st) = Ok (i_graph st) /\
  (f_bg (i_fig st0) <> BgWhite -> splot (i_pipe st) n_data cd f stat dim n scale pp = Ok (i_fig st)) /\
  (f_bg (i_fig st0) = BgWhite -> f_bg (i_fig st) = BgWhite /\ exists fig,
     splot (i_pipe st) n_data cd f stat dim n scale (PParams (Some "white"%string) (pp_scale pp)) = Ok fig /\
     f_edges (i_fig st) = f_edges fig /\ f_pos (i_fig st) = f_pos fig /\ f_sizes (i_fig st) = f_sizes fig /\ f_sizeref (i_fig st) = f_sizeref fig /\
     f_colors (i_fig st) = f_colors fig /\ f_scale (i_fig st) = f_scale fig /\ f_text (i_fig st) = f_text fig /\ f_menu (i_fig st) = f_menu fig).
Proof.
  intros D E st V. destruct (history_inv _ _ _ _ _ flush _ _ _ _ _ _ _ _ _ _ _ h D E) as [_ HR]. specialize (HR V). fold st in HR. destruct (static_of_result _ _ _ _ _ _ _ _ _ _ _ _ E HR) as [H1 H2]. split; [apply HR|]. split; [assumption|].
  intros W. destruct (H2 W) as [H3 H4]. split; [assumption|]. eexists. split; [exact H4|]. repeat (split; [reflexivity|]). reflexivity.
Qed.

(** The node summaries are those whose first column colours the figure. *)
Theorem interactive_summaries d n_data cd f stat pp s st0 h : dict d ->
  iplot d n_data cd f stat pp = Ok (s, st0) -> let st := changes s st0 h in
  i_valid st = true -> is_column (m_rows (i_summ st)) 0 (f_colors (i_fig st)) /\ zlen (m_rows (i_summ st)) = zlen (g_nodes (i_graph st)).
Proof.
  intros D E st V. destruct (history_inv _ _ _ _ _ flush _ _ _ _ _ _ _ _ _ _ _ h D E) as [_ HR]. specialize (HR V). fold st in HR. destruct (init_result _ _ _ _ _ _ _ _ _ _ _ _ _ _ _ _ E) as [[fn SC] _].
  destruct HR as [_ [tr [bgc [menu [C [_ [_ EF]]]]]]]. rewrite EF. cbn [f_colors]. unfold calculate_graph_data in C. rewrite SC in C. destruct (get_node_statistics (s_color s) (map n_elements (g_nodes (i_graph st))) fn) as [M|] eqn:EM; cbn [bind] in C; [|discriminate].
  destruct (set_node_sizeref _ _); cbn [bind] in C; [|discriminate]. destruct (mcol M 0) as [c0|] eqn:E0; cbn [bind] in C; [|discriminate]. destruct (negb _); [discriminate|]. destruct (layout _ dim); cbn [bind] in C; [|discriminate]. destruct (mapM _ _); cbn [bind] in C; [|discriminate]. destruct (mapM _ _); cbn [bind] in C; [|discriminate]. injection C as <- <-. cbn [t_colors]. split.
  - unfold mcol in E0. destruct (_ && _); [|discriminate]. apply mapM_Ok_inv in E0. unfold is_column. clear - E0. induction E0 as [|row x rows xs H F IH]; constructor; [|assumption]. unfold py_get in H. cbn in H. destruct row; cbn in H; [discriminate|]. injection H as <-. apply Znth_0.
  - unfold get_node_statistics in EM. destruct (mapM _ (map n_elements (g_nodes (i_graph st)))) as [rows|] eqn:ER; cbn [bind] in EM; [|discriminate]. injection EM as <-. cbn [m_rows]. apply mapM_Ok_inv in ER. apply Forall2_zlen in ER. rewrite <- ER. apply zlen_map.
Qed.

(** A change to another value ticks the box exactly if a static plot with the new
    parameters can be drawn (in three dimensions: with coloured labels). *)
Theorem interactive_valid d n_data cd f stat pp s st0 h k v v' w : dict d ->
  iplot d n_data cd f stat pp = Ok (s, st0) -> f_bg (i_fig st0) <> BgWhite ->
  editable d k -> value_of d k v -> shown_value v k h v' -> same_type v' w -> v' <> w ->
  let st := changes s st0 (h ++ [(k, w)]) in
  i_valid st = true <-> exists fig, splot (i_pipe st) n_data cd f stat dim n scale pp = Ok fig /\ f_bg fig <> BgWhite.
Proof.
  intros D E NW ED V SV T N st. split.
  - intros IV. destruct (interactive_static _ _ _ _ _ _ _ _ (h ++ [(k, w)]) D E IV) as [_ [H _]]. exists (i_fig st). split; [now apply H|].
    destruct (history_inv _ _ _ _ _ flush _ _ _ _ _ _ _ _ _ _ _ (h ++ [(k, w)]) D E) as [_ HR]. specialize (HR IV). destruct HR as [_ [tr [bgc [menu [_ [EB [_ EF]]]]]]]. unfold st. rewrite EF. cbn [f_bg]. destruct (s_scale s); [destruct EB as [? [? [? [? [_ [_ [_ [_ ->]]]]]]]]; discriminate|]. now rewrite EB.
  - intros [fig [ES NW']]. pose proof (result_of_static _ _ _ _ _ _ _ _ _ _ E NW ES NW') as [g [M R]]. revert R. unfold st. rewrite changes_snoc. destruct (params_hold _ _ _ _ _ flush _ _ _ _ _ _ _ _ _ _ _ h D E) as [I1 [I2 [I3 I4]]]. destruct (history_inv _ _ _ _ _ flush _ _ _ _ _ _ _ _ _ _ _ h D E) as [IF _].
    apply (dict_dget d k v D) in V. apply (editable_iff d k v D V) in ED. destruct (I1 k v V ED) as [w1 [Ew [Sw _]]]. assert (w1 = v') by (eapply shown_unique; eassumption). subst w1. unfold IplotModel.change. rewrite Ew. rewrite (proj2 (accepts_iff _ _) T).
    assert (Q : pval_eqb v' w = false) by (destruct (pval_eqb v' w) eqn:Q; [|reflexivity]; apply pval_eqb_iff in Q; contradiction). rewrite Q. cbn [negb andb]. match goal with |- context [on_parameter_change _ _ _ _ _ _ _ _ s ?x] => set (st1 := x) end.
    destruct (iplot_inv _ _ _ _ _ _ _ _ _ _ _ _ _ _ _ _ E) as [[S1 [S2 S3]] _]. destruct (init_result _ _ _ _ _ _ _ _ _ _ _ _ _ _ _ _ E) as [SC _].
    destruct (set_all_ok d s (i_widgets st1) (i_pipe st1) D S1 S2 S3 I3) as [pipe' [EA [K H]]].
    { intros k' v0 Ek Eb. destruct (I1 k' v0 Ek Eb) as [w' [Ew' _]]. cbn [st1 i_widgets]. rewrite dget_dset, Ew. destruct (String.eqb k' k); eauto. }
    destruct (handler_params fz fmt layout run flush dim n scale s st1) as [_ HP]. rewrite HP, EA. cbn [fst]. intros R. destruct (handler_fig fz fmt layout run flush dim n scale s st0 st1 pipe' SC IF EA) as [_ [H1 _]]. now apply (H1 g M fig).
Qed.

(** The state after valid changes does not depend on how it was reached. *)
Theorem interactive_history_independent d n_data cd f stat pp s st0 h1 h2 : dict d ->
  iplot d n_data cd f stat pp = Ok (s, st0) ->
  (forall k v v1 v2, passed_on d k -> value_of d k v -> shown_value v k h1 v1 -> shown_value v k h2 v2 -> v1 = v2) ->
  let a := changes s st0 h1 in let b := changes s st0 h2 in
  i_pipe a = i_pipe b /\
  (i_valid a = true -> i_valid b = true -> i_graph a = i_graph b /\ i_summ a = i_summ b /\ i_fig a = i_fig b).
Proof.
  intros D E H a b. destruct (params_hold _ _ _ _ _ flush _ _ _ _ _ _ _ _ _ _ _ h1 D E) as [I1 [_ [I3 I4]]]. destruct (params_hold _ _ _ _ _ flush _ _ _ _ _ _ _ _ _ _ _ h2 D E) as [J1 [_ [J3 J4]]].
  assert (EP : i_pipe a = i_pipe b).
  { apply dict_ext; [unfold dict, a; now rewrite I3|unfold a, b; congruence|]. intros k. destruct (dget d k) as [v|] eqn:Ek.
    - unfold a, b. rewrite (I4 k v Ek), (J4 k v Ek). destruct (pb k v) eqn:P; [|reflexivity]. destruct (I1 k v Ek (pb_eb _ _ P)) as [w1 [E1 [S1 _]]]. destruct (J1 k v Ek (pb_eb _ _ P)) as [w2 [E2 [S2 _]]]. rewrite E1, E2. f_equal. apply (H k v w1 w2); try assumption; [now apply (passed_iff d k v D Ek)|now apply dict_dget].
    - unfold a, b. rewrite (dget_keys d _ k (eq_sym I3) Ek), (dget_keys d _ k (eq_sym J3) Ek). reflexivity. }
  split; [exact EP|]. intros V1 V2. destruct (history_inv _ _ _ _ _ flush _ _ _ _ _ _ _ _ _ _ _ h1 D E) as [_ R1]. destruct (history_inv _ _ _ _ _ flush _ _ _ _ _ _ _ _ _ _ _ h2 D E) as [_ R2]. specialize (R1 V1). specialize (R2 V2). fold a in R1. fold b in R2. rewrite <- EP in R2. eapply result_unique; eassumption.
Qed.

(** Rejected changes. *)
Theorem interactive_rejected d n_data cd f stat pp s st0 h e : dict d ->
  iplot d n_data cd f stat pp = Ok (s, st0) -> let st := changes s st0 (h ++ [e]) in let old := changes s st0 h in
  ((exists x, run (i_pipe st) = Err x) -> i_graph st = i_graph old /\ i_summ st = i_summ old /\ i_fig st = i_fig old /\ i_valid st = false) /\
  (flush = false -> i_valid st = false -> i_fig st = i_fig old).
Proof.
  intros D E st old. assert (KEY : st = old \/ exists st1 pipe, st = on_parameter_change fz fmt layout run flush dim n scale s st1 /\ i_graph st1 = i_graph old /\ i_summ st1 = i_summ old /\ i_fig st1 = i_fig old /\ set_all s (i_widgets st1) (i_pipe st1) = (pipe, true)).
  { unfold st. rewrite changes_snoc. fold old. destruct e as [k w]. unfold IplotModel.change. destruct (dget (i_widgets old) k) as [o|] eqn:E0; [|now left]. destruct (_ && _); [|now left]. right. eexists.
    destruct (params_hold _ _ _ _ _ flush _ _ _ _ _ _ _ _ _ _ _ h D E) as [I1 [I2 [I3 I4]]]. destruct (iplot_inv _ _ _ _ _ _ _ _ _ _ _ _ _ _ _ _ E) as [[S1 [S2 S3]] _].
    destruct (set_all_ok d s (dset (i_widgets old) k w) (i_pipe old) D S1 S2 S3 I3) as [pipe' [EA _]].
    { intros k' v0 Ek Eb. destruct (I1 k' v0 Ek Eb) as [w' [Ew' _]]. fold old in Ew'. rewrite dget_dset, E0. destruct (String.eqb k' k); eauto. }
    exists pipe'. split; [reflexivity|]. split; [reflexivity|]. split; [reflexivity|]. split; [reflexivity|]. exact EA. }
  destruct KEY as [KEY|[st1 [pipe [KEY [G1 [G2 [G3 EA]]]]]]].
  - split; [|now rewrite KEY]. intros [x EX]. rewrite KEY. split; [reflexivity|]. split; [reflexivity|]. split; [reflexivity|]. destruct (i_valid old) eqn:V; [|reflexivity]. exfalso. destruct (history_inv _ _ _ _ _ flush _ _ _ _ _ _ _ _ _ _ _ h D E) as [_ R]. destruct (R V) as [R' _]. fold old in R'. rewrite KEY in EX. congruence.
  - assert (EP : i_pipe st = pipe) by (rewrite KEY; destruct (handler_params fz fmt layout run flush dim n scale s st1) as [_ ->]; now rewrite EA). split.
    + intros [x EX]. rewrite EP in EX. rewrite KEY. unfold on_parameter_change. rewrite EA. cbn [negb]. rewrite EX. auto.
    + intros FL. rewrite KEY, <- G3. unfold on_parameter_change. rewrite EA. cbn [negb]. destruct (run pipe) as [g|]; [|reflexivity]. destruct (calculate_graph_data _ _ _ _ _ _ _ _ _) as [[tr M]|]; [|reflexivity]. destruct (match s_scale s with None => _ | Some _ => _ end) as [fig|]; [|reflexivity]. cbn zeta. destruct (1 <? m_cols M); [|discriminate]. destruct (get_column_color_buttons _ _ _ _ _ _); [discriminate|]. now rewrite FL.
Qed.

(** Arrays of node colours are refused. *)
Theorem interactive_array d n_data cd dd f a pp g : run d = Ok g -> 0 < n_data -> color_data_used n_data cd dd ->
  iplot d n_data cd f (NArr a) pp = Err ValueError.
Proof. intros R Hn HD. unfold interactive_plot. rewrite R. cbn [bind]. unfold validate_color_kwargs. rewrite (color_data_ok _ _ _ Hn HD). reflexivity. Qed.

(** What the figure shows (see C72). *)
Lemma labels_dec user_bg named : labels_possible dim user_bg named \/
  (dim = 3 /\ user_bg = None /\ exists nm0 cs0 nm cs, Znth named 0 = Some (nm0, cs0) /\ varies cs0 /\ In (nm, cs) named /\ ~ varies cs).
Proof.
  destruct (Z.eq_dec dim 3) as [Ed|Nd]; [|left; intros X; contradiction]. destruct user_bg as [u|]; [left; intros _ X; discriminate|]. destruct (Znth named 0) as [[nm0 cs0]|] eqn:E0; [|left; intros _ _ ? ? X; congruence].
  destruct (varies_dec cs0) as [V|V]; [|left; intros _ _ ? ? X Y; rewrite E0 in X; injection X as <- <-; contradiction].
  assert (A : (forall nm cs, In (nm, cs) named -> varies cs) \/ exists nm cs, In (nm, cs) named /\ ~ varies cs).
  { clear. induction named as [|[nm cs] named IH]; [left; intros ? ? []|]. destruct IH as [IH|[nm' [cs' [I V]]]]; [|right; exists nm', cs'; split; [now right|assumption]]. destruct (varies_dec cs) as [V|V]; [left; intros ? ? [[= <- <-]|I]; eauto|]. right. exists nm, cs. split; [now left|assumption]. }
  destruct A as [A|[nm [cs [I NV]]]]; [left; intros _ _ ? ? _ _; exact A|]. right. split; [assumption|]. split; [reflexivity|]. exists nm0, cs0, nm, cs. auto.
Qed.
Hypothesis fmt_no_blank : forall s, no_blank (fmt s).
Theorem interactive_shows d n_data cd dd f cols st pp s st0 h pos stops named : dict d ->
  iplot d n_data cd f (NCall st) pp = Ok (s, st0) -> f_bg (i_fig st0) <> BgWhite -> let now := changes s st0 h in
  i_valid now = true ->
  plot_request layout (i_graph now) n_data cd dd f cols st dim pos scale (match pp_scale pp with Some s => s | None => viridis end) stops named ->
  figure_shows fz fmt n (i_graph now) dim pos scale (pp_bg pp) (match pp_scale pp with Some s => s | None => viridis end) stops named (i_fig now).
Proof.
  intros D E NW now V HR. destruct (interactive_static _ _ _ _ _ _ _ _ h D E V) as [R [H _]]. specialize (H NW). fold now in R, H. rewrite R in H.
  destruct (labels_dec (pp_bg pp) named) as [LP|[Ed [Eb [nm0 [cs0 [nm [cs [E0 [V0 [I NV]]]]]]]]]].
  - destruct (static_plot_spec fz fmt fmt_no_blank viridis layout _ _ _ _ _ _ _ n _ _ _ _ _ _ HR LP) as [fig [Ef S]]. rewrite Ef in H. injection H as <-. exact S.
  - exfalso. rewrite Ed in HR, H. rewrite (static_plot_constant_column fz fmt viridis layout _ _ _ _ _ _ _ n _ _ _ _ _ _ _ _ _ HR Eb E0 V0 I NV) in H. discriminate.
Qed.
End Plotter.
