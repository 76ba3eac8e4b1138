(** C72: static Mapper plots. *)
From Coq Require Import Ascii String Qround.
From Verif Require Import Np NpFacts Fl FlFacts VecModel ColorTypes ColorModel ColorSpec MplotTypes MplotModel MplotSpec MplotThms MplotThms2 MplotThms3.
From Verif Require CurveThms2 PlotThms5.
Open Scope Z_scope.

Lemma tl_arange n : 0 <= n -> tl (arange (n + 1)) = map (fun i => i + 1) (arange n).
Proof. intros H. unfold arange. rewrite tabZ_S_front by assumption. cbn [tl]. now rewrite tabZ_map. Qed.

Lemma colored_columns st g cols named : colored_by st g cols named ->
  map fst cols = map fst named /\ zlen cols = zlen named /\ Forall2 (fun nc cs => node_colors st (g_nodes g) (snd nc) cs) cols (map snd named) /\
  (forall nm cs, In (nm, cs) named -> zlen cs = zlen (g_nodes g)).
Proof.
  induction 1 as [|[nm col] [nm' cs] cols named [E H] F [A [B [C D]]]]; [split; [reflexivity|split; [reflexivity|split; [constructor|intros ? ? []]]]|]. cbn [fst snd map] in *. subst nm'.
  split; [congruence|]. split; [rewrite !zlen_cons; lia|]. split; [now constructor|]. intros nm' cs' [[= <- <-]|I]; [now apply node_colors_len in H|]. now apply (D nm').
Qed.
Lemma np_mean_default : default_statistic np_mean.
Proof.
  intros vals NE. eexists. split; [reflexivity|]. unfold is_mean.
  assert (F : forall l a, fold_left Qcplus l a = (a + fold_right Qcplus 0 l)%Qc) by (induction l as [|x l IH]; intros a; cbn; [ring|rewrite IH; ring]). rewrite F.
  field. rewrite <- qz_0, qz_inj. destruct vals; [contradiction|]. rewrite zlen_cons. pose proof (zlen_nonneg vals). lia.
Qed.
Lemma default_unique st st' vals : default_statistic st -> default_statistic st' -> vals <> [] -> st vals = st' vals.
Proof.
  intros H H' NE. destruct (H vals NE) as [m [-> M]]. destruct (H' vals NE) as [m' [-> M']]. f_equal. unfold is_mean in *. rewrite <- M' in M.
  assert (Z : qz (zlen vals) <> 0%Qc) by (rewrite <- qz_0, qz_inj; destruct vals; [contradiction|]; rewrite zlen_cons; pose proof (zlen_nonneg vals); lia).
  apply (f_equal (fun x => x / qz (zlen vals)))%Qc in M. now rewrite !Qcdiv_mult_l in M.
Qed.

Section Static.
Variable fz : Z -> string.
Variable fmt : shown -> string.
Hypothesis fmt_no_blank : forall s, no_blank (fmt s).
Variable viridis : colorscale_t.
Variable layout : mgraph -> Z -> res (list (list Qc)).

Lemma buttons_ok M named nodes n scale stops nm0 cs0 :
  has_node_colors M (map snd named) (zlen nodes) -> 0 < zlen nodes -> (forall nm cs, In (nm, cs) named -> zlen cs = zlen nodes) ->
  Znth named 0 = Some (nm0, cs0) ->
  match scale, stops with
  | None, None => True
  | Some s, Some st => proper_scale s st /\ forall nm cs, In (nm, cs) named -> varies cs
  | _, _ => False
  end ->
  exists menu, get_column_color_buttons fmt M (texts_of fz fmt n nodes cs0) scale n (Some (map fst named)) = Ok menu /\
    shows_menu fz fmt n nodes stops named menu.
Proof.
  intros HM Hn L E0 HS. pose proof (Znth_Some_lt _ _ _ E0) as B0. unfold get_column_color_buttons.
  assert (Ec : forall j nm cs, Znth named j = Some (nm, cs) -> mcol M j = Ok cs) by (intros j nm cs E; apply (mcol_ok M _ _ _ _ HM); now rewrite Znth_map, E).
  assert (El : forall j nm cs, Znth named j = Some (nm, cs) -> py_get (map fst named) j = Ok nm) by (intros j nm cs E; apply py_get_in; [now apply Znth_Some_lt in E|]; now rewrite Znth_map, E).
  rewrite (Ec _ _ _ E0). cbn [bind]. rewrite (El _ _ _ E0). cbn [bind]. rewrite zlen_map. replace (arange (zlen named)) with (arange (zlen named - 1 + 1)) by (f_equal; lia). rewrite tl_arange by lia. rewrite mapM_map.
  destruct (mapM_arange_ok (zlen named - 1)
    (fun i => do node_colors <- mcol M (i + 1); do l <- py_get (map fst named) (i + 1);
       do hl <- match scale with None => Ok None | Some scale => do min_col <- np_min node_colors; do max_col <- np_max node_colors; rmap Some (hex_colors_for_vals node_colors min_col max_col scale) end;
       Ok (Button l node_colors (map2 (replace_summary_statistic fmt n) (texts_of fz fmt n nodes cs0) node_colors) hl))
    (fun i b => exists nm cs, Znth named (i + 1) = Some (nm, cs) /\ b_label b = nm /\ b_colors b = cs /\ hover_texts fz fmt n nodes cs (b_text b) /\
       match stops, b_bg b with Some st, Some l => label_colors st cs l | Some _, None => False | None, l => l = None end)) as [rest [Er [Lr H]]]; [lia| |].
  { intros i Hi. destruct (Znth_ex named (i + 1)) as [[nm cs] E]; [lia|]. rewrite (Ec _ _ _ E). cbn [bind]. rewrite (El _ _ _ E). cbn [bind]. pose proof (L nm cs (Znth_In _ _ _ E)) as Lc. pose proof (L nm0 cs0 (Znth_In _ _ _ E0)) as L0.
    rewrite (replace_texts fz fmt n nodes cs0 cs fmt_no_blank L0 Lc). destruct scale as [s|], stops as [st|]; try contradiction.
    - destruct HS as [PS V]. destruct (min_max_ok cs) as [mn [mx [E1 [E2 Ex]]]]; [intros ->; cbn in Lc; lia|]. rewrite E1. cbn [bind]. rewrite E2. cbn [bind].
      destruct (label_colors_ok s st cs mn mx PS Ex (V _ _ (Znth_In _ _ _ E))) as [out [Eo Ho]]. rewrite Eo. cbn [rmap bind]. eexists. split; [reflexivity|]. exists nm, cs. split; [assumption|]. split; [reflexivity|]. split; [reflexivity|]. split; [now apply texts_hover|assumption].
    - cbn [bind]. eexists. split; [reflexivity|]. exists nm, cs. split; [assumption|]. split; [reflexivity|]. split; [reflexivity|]. split; [now apply texts_hover|reflexivity]. }
  rewrite Er. cbn [bind]. eexists. split; [reflexivity|]. split; [rewrite zlen_cons; lia|]. intros j nm cs b Ej Eb. pose proof (Znth_Some_lt _ _ _ Ej) as Bj. destruct (Z.eq_dec j 0) as [->|N].
  - rewrite Znth_0 in Eb. injection Eb as <-. rewrite E0 in Ej. injection Ej as <- <-. split; [reflexivity|]. split; [reflexivity|]. split; [apply texts_hover; apply (L nm0); eapply Znth_In; eassumption|]. cbn. now destruct stops.
  - rewrite Znth_cons in Eb by lia. destruct (H (j - 1)) as [b' [Eb' [nm' [cs' [Ej' [A1 [A2 [A3 A4]]]]]]]]; [lia|]. replace (j - 1 + 1) with j in Ej' by lia. rewrite Ej in Ej'. injection Ej' as <- <-. rewrite Eb in Eb'. injection Eb' as <-.
    split; [assumption|]. split; [assumption|]. split; [assumption|]. destruct stops as [st|]; [|assumption]. destruct (b_bg b); [|contradiction]. split; [lia|assumption].
Qed.

Lemma figure_core g n dim pos scale pp stops m vs M named names :
  g_nodes g <> [] -> (forall s t, In (s, t) (g_edges g) -> 0 <= s < zlen (g_nodes g) /\ 0 <= t < zlen (g_nodes g)) ->
  dim = 2 \/ dim = 3 -> layout g dim = Ok pos -> positions dim g pos -> scale <> 0%Qc ->
  proper_scale (match pp_scale pp with Some s => s | None => viridis end) stops ->
  match vs with VCall f => get_node_statistics m (map n_elements (g_nodes g)) f | VArr m => Ok m end = Ok M ->
  has_node_colors M (map snd named) (zlen (g_nodes g)) -> named <> [] -> (forall nm cs, In (nm, cs) named -> zlen cs = zlen (g_nodes g)) ->
  (1 < zlen named -> names = Some (map fst named)) ->
  labels_possible dim (pp_bg pp) named ->
  exists fig, (do tc <- calculate_graph_data fz fmt layout g m vs dim n scale; let '(tr, colors) := tc in produce_static_figure fmt viridis tr colors names dim n pp) = Ok fig /\
    figure_shows fz fmt n g dim pos scale (pp_bg pp) (match pp_scale pp with Some s => s | None => viridis end) stops named fig.
Proof.
  intros NE HE Hd El P Hs PS EM HM NN L HN LP. unfold calculate_graph_data. rewrite EM. cbn [bind].
  destruct (sizeref_ok (g_nodes g) scale NE Hs) as [ref [Er Hr]]. rewrite Er. cbn [bind].
  destruct named as [|[nm0 cs0] named']; [contradiction|]. set (named := (nm0, cs0) :: named') in *. assert (E0 : Znth named 0 = Some (nm0, cs0)) by apply Znth_0.
  assert (EC : mcol M 0 = Ok cs0) by (apply (mcol_ok M _ _ _ _ HM); now rewrite Znth_map, E0). rewrite EC. cbn [bind].
  assert (L0 : zlen cs0 = zlen (g_nodes g)) by (apply (L nm0); now left). assert (Hn : 0 < zlen (g_nodes g)) by (destruct (g_nodes g); [contradiction|]; rewrite zlen_cons; pose proof (zlen_nonneg l); lia).
  assert (G : negb ((dim =? 2) || (dim =? 3)) = false) by (destruct Hd as [-> | ->]; reflexivity). rewrite G, El. cbn [bind]. clear G.
  assert (Hd0 : 0 <= dim) by lia. destruct (edges_ok dim g pos Hd0 P HE) as [edges [Ee He]]. rewrite Ee. cbn [bind]. destruct (axes_ok dim g pos Hd0 P) as [axes [Ea Ha]]. rewrite Ea. cbn [bind].
  unfold produce_static_figure. cbn [t_text t_edges t_pos t_sizes t_sizeref t_colors]. fold (texts_of fz fmt n (g_nodes g) cs0). set (cs := match pp_scale pp with Some s => s | None => viridis end) in *.
  assert (Mc : m_cols M = zlen named) by (rewrite (proj1 HM); apply zlen_map).
  assert (FS : forall bgc lscale lst fig, fig = MFigure edges axes (get_node_size (map n_elements (g_nodes g))) ref cs0 cs (texts_of fz fmt n (g_nodes g) cs0) bgc None ->
    match lscale, lst with None, None => True | Some s, Some st => proper_scale s st /\ forall nm cs, In (nm, cs) named -> varies cs | _, _ => False end ->
    match pp_bg pp with Some s => bgc = BgUser s /\ lst = None | None => (dim = 2 /\ bgc = BgNone /\ lst = None) \/ (dim = 3 /\ ~ varies cs0 /\ bgc = BgWhite /\ lst = None) \/ (dim = 3 /\ varies cs0 /\ lst = Some stops /\ exists l, bgc = BgNodes l /\ label_colors stops cs0 l) end ->
    exists f, (do menu <- (if 1 <? m_cols M then rmap Some (get_column_color_buttons fmt M (texts_of fz fmt n (g_nodes g) cs0) lscale n names) else Ok None);
       Ok (MFigure edges axes (get_node_size (map n_elements (g_nodes g))) ref cs0 cs (texts_of fz fmt n (g_nodes g) cs0) bgc menu)) = Ok f /\ figure_shows fz fmt n g dim pos scale (pp_bg pp) cs stops named f).
  { intros bgc lscale lst fig _ HL HB.
    assert (B : exists menu, (if 1 <? m_cols M then rmap Some (get_column_color_buttons fmt M (texts_of fz fmt n (g_nodes g) cs0) lscale n names) else Ok None) = Ok menu /\
      match menu with None => zlen named = 1 | Some menu => 1 < zlen named /\ shows_menu fz fmt n (g_nodes g) lst named menu end).
    { rewrite Mc. destruct (Z.ltb_spec 1 (zlen named)) as [H|H].
      - rewrite (HN H). destruct (buttons_ok M named (g_nodes g) n lscale lst nm0 cs0 HM Hn L E0 HL) as [menu [Em Hm]]. rewrite Em. exists (Some menu). auto.
      - exists None. split; [reflexivity|]. unfold named in *. rewrite zlen_cons in *. pose proof (zlen_nonneg named'). lia. }
    destruct B as [menu [Em Hm]]. rewrite Em. cbn [bind]. eexists. split; [reflexivity|]. unfold figure_shows. cbn [f_pos f_edges f_sizes f_sizeref f_colors f_text f_scale f_bg f_menu].
    split; [assumption|]. split; [assumption|]. split; [assumption|]. split; [now exists nm0|]. split; [now apply texts_hover|]. split; [reflexivity|]. exists lst. split; assumption. }
  destruct (pp_bg pp) as [ub|] eqn:Eb; [cbn [bind]; eapply (FS _ None None); [reflexivity|exact I|auto]|].
  destruct Hd as [-> | ->]; cbn [Z.eqb Pos.eqb bind].
  - eapply (FS _ None None); [reflexivity|exact I|auto].
  - rewrite EC. cbn [bind]. destruct (min_max_ok cs0) as [mn [mx [E1 [E2 Ex]]]]; [intros ->; cbn in L0; lia|]. rewrite E1. cbn [bind]. rewrite E2. cbn [bind]. destruct (varies_dec cs0) as [V|V].
    + destruct (label_colors_ok cs stops cs0 mn mx PS Ex V) as [out [Eo Ho]]. rewrite Eo. cbn [bind]. eapply (FS _ (Some cs) (Some stops)); [reflexivity| |].
      * split; [assumption|]. exact (LP eq_refl eq_refl nm0 cs0 E0 V).
      * right. right. split; [reflexivity|]. split; [assumption|]. split; [reflexivity|]. now exists out.
    + rewrite (label_colors_err cs cs0 mn mx Ex V). cbn [bind]. eapply (FS _ None None); [reflexivity|exact I|]. right. left. auto.
Qed.

Lemma static_core g n_data cd d f cols st stat n dim pos scale pp stops named :
  checked_statistic (zlen (g_nodes g)) stat false = Ok (VCall st, None) ->
  plot_request layout g n_data cd d f cols st dim pos scale (match pp_scale pp with Some s => s | None => viridis end) stops named ->
  labels_possible dim (pp_bg pp) named ->
  exists fig, plot_static_mapper_graph fz fmt viridis layout (Ok g) n_data cd f stat dim n scale pp = Ok fig /\
    figure_shows fz fmt n g dim pos scale (pp_bg pp) (match pp_scale pp with Some s => s | None => viridis end) stops named fig.
Proof.
  intros ES [Hn [[NE [HV HE]] [HD [HF [NC [LC [HC [Hd [El [P [Hs PS]]]]]]]]]]] LP. unfold plot_static_mapper_graph, validate_color_kwargs. cbn [bind]. rewrite (color_data_ok n_data cd d Hn HD). cbn [bind]. rewrite ES. cbn [bind].
  destruct (features_ok d f cols n_data Hn (used_rectangular _ _ _ HD) NC HF LC) as [a [nn [m [E1 [E2 [E3 E4]]]]]]. rewrite E1. cbn [bind]. rewrite E2. cbn [bind].
  destruct (colored_columns _ _ _ _ HC) as [Fs [Ln [Fc Lc]]].
  destruct (node_statistics_ok m cols (g_nodes g) st (map snd named) E3 Fc) as [M [EM HM]]; [intros v i Iv Ii; now apply (HV v Iv)|].
  eapply figure_core; try eassumption.
  - intros ->. destruct cols; [now apply NC|]. inversion HC.
  - rewrite <- Ln, <- Fs. exact E4.
Qed.

(** The figure for a statistic: every node has the statistic of its elements as
    colour, for each column that is asked for. *)
Theorem static_plot_spec g n_data cd d f cols st n dim pos scale pp stops named :
  plot_request layout g n_data cd d f cols st dim pos scale (match pp_scale pp with Some s => s | None => viridis end) stops named ->
  labels_possible dim (pp_bg pp) named ->
  exists fig, plot_static_mapper_graph fz fmt viridis layout (Ok g) n_data cd f (NCall st) dim n scale pp = Ok fig /\
    figure_shows fz fmt n g dim pos scale (pp_bg pp) (match pp_scale pp with Some s => s | None => viridis end) stops named fig.
Proof. apply static_core. reflexivity. Qed.

Theorem static_plot_default g n_data cd d f cols st n dim pos scale pp stops named :
  default_statistic st ->
  plot_request layout g n_data cd d f cols st dim pos scale (match pp_scale pp with Some s => s | None => viridis end) stops named ->
  labels_possible dim (pp_bg pp) named ->
  exists fig, plot_static_mapper_graph fz fmt viridis layout (Ok g) n_data cd f NNone dim n scale pp = Ok fig /\
    figure_shows fz fmt n g dim pos scale (pp_bg pp) (match pp_scale pp with Some s => s | None => viridis end) stops named fig.
Proof.
  intros DS HR. apply (static_core g n_data cd d f cols np_mean); [reflexivity|]. destruct HR as [Hn [HG [HD [HF [NC [LC [HC HR]]]]]]].
  split; [assumption|]. split; [assumption|]. split; [assumption|]. split; [assumption|]. split; [assumption|]. split; [assumption|]. split; [|assumption].
  destruct HG as [_ [HV _]]. clear - DS HC HV. induction HC as [|c e cols named [E H] F IH]; constructor; [|assumption]. split; [assumption|]. clear IH F E. unfold node_colors in *.
  induction H as [|v x nodes xs [vals [Fv Es]] F IH]; constructor; [|apply IH; intros; apply HV; now right]. exists vals. split; [assumption|]. rewrite <- Es. apply default_unique; [apply np_mean_default|assumption|].
  intros ->. destruct (HV v (or_introl eq_refl)) as [N _]. inversion Fv. now apply N.
Qed.
End Static.
