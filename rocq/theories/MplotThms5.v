(** C72: static Mapper plots: menu, arrays of colours, errors. *)
From Coq Require Import Ascii String Qround.
From Verif Require Import Np NpFacts Fl FlFacts VecModel ColorTypes ColorModel ColorSpec MplotTypes MplotModel MplotSpec MplotThms MplotThms2 MplotThms3 MplotThms4.
From Verif Require CurveThms2 PlotThms5.
Open Scope Z_scope.

Lemma mapM_only_err {A B} (f : A -> res B) l e :
  (forall a, In a l -> (exists b, f a = Ok b) \/ f a = Err e) -> (exists a, In a l /\ f a = Err e) -> mapM f l = Err e.
Proof.
  induction l as [|a l IH]; intros H [x [I E]]; [destruct I|]. cbn [mapM]. destruct (H a (or_introl eq_refl)) as [[b Eb]|Eb]; rewrite Eb; [|reflexivity]. cbn [bind].
  destruct I as [->|I]; [congruence|]. rewrite IH; [reflexivity| |now exists x]. intros a' I'. apply H. now right.
Qed.

Section Static.
Variable fz : Z -> string.
Variable fmt : shown -> string.
Hypothesis fmt_no_blank : forall s, no_blank (fmt s).
Variable viridis : colorscale_t.
Variable layout : mgraph -> Z -> res (list (list Qc)).
Notation plot := (plot_static_mapper_graph fz fmt viridis layout).
Notation scale_used pp := (match pp_scale pp with Some s => s | None => viridis end).

(** In three dimensions, if the first colours vary but those of another column do
    not, there is no figure.  If the first colours do not vary there is one. *)
Theorem static_plot_constant_column g n_data cd d f cols st n pos scale pp stops named nm0 cs0 nm cs :
  plot_request layout g n_data cd d f cols st 3 pos scale (scale_used pp) stops named ->
  pp_bg pp = None -> Znth named 0 = Some (nm0, cs0) -> varies cs0 -> In (nm, cs) named -> ~ varies cs ->
  plot (Ok g) n_data cd f (NCall st) 3 n scale pp = Err ValueError.
Proof.
  intros [Hn [[NE [HV HE]] [HD [HF [NC [LC [HC [Hd [El [P [Hs PS]]]]]]]]]]] Eb E0 V0 Ic Vc. unfold plot_static_mapper_graph, validate_color_kwargs. cbn [bind]. rewrite (color_data_ok n_data cd d Hn HD). cbn [bind checked_statistic].
  destruct (features_ok d f cols n_data Hn (used_rectangular _ _ _ HD) NC HF LC) as [a [nn [m [E1 [E2 [E3 E4]]]]]]. rewrite E1. cbn [bind]. rewrite E2. cbn [bind].
  destruct (colored_columns _ _ _ _ HC) as [Fs [Ln [Fc Lc]]].
  destruct (node_statistics_ok m cols (g_nodes g) st (map snd named) E3 Fc) as [M [EM HM]]; [intros v i Iv Ii; now apply (HV v Iv)|].
  unfold calculate_graph_data. rewrite EM. cbn [bind]. destruct (sizeref_ok (g_nodes g) scale NE Hs) as [ref [Er _]]. rewrite Er. cbn [bind].
  assert (Ec : forall j nm cs, Znth named j = Some (nm, cs) -> mcol M j = Ok cs) by (intros j nm' cs' E; apply (mcol_ok M _ _ _ _ HM); now rewrite Znth_map, E).
  rewrite (Ec _ _ _ E0). cbn [bind Z.eqb Pos.eqb orb negb]. rewrite El. cbn [bind].
  destruct (edges_ok 3 g pos ltac:(lia) P HE) as [edges [Ee _]]. rewrite Ee. cbn [bind]. destruct (axes_ok 3 g pos ltac:(lia) P) as [axes [Ea _]]. rewrite Ea. cbn [bind].
  unfold produce_static_figure. rewrite Eb. cbn [Z.eqb Pos.eqb bind]. rewrite (Ec _ _ _ E0). cbn [bind].
  assert (Ne : forall nm cs, In (nm, cs) named -> cs <> []).
  { intros nm' cs' I ->. apply Lc in I. cbn in I. destruct (g_nodes g); [contradiction|]. rewrite zlen_cons in I. pose proof (zlen_nonneg l). lia. }
  destruct (min_max_ok cs0) as [mn [mx [Em [Ex Hx]]]]; [eapply Ne; eapply Znth_In; eassumption|]. rewrite Em. cbn [bind]. rewrite Ex. cbn [bind].
  destruct (label_colors_ok _ stops cs0 mn mx PS Hx V0) as [out [Eo _]]. rewrite Eo. cbn [bind].
  apply In_Znth in Ic. destruct Ic as [j [_ Ej]]. assert (J : 0 < j).
  { pose proof (Znth_Some_lt _ _ _ Ej). assert (j <> 0); [|lia]. intros ->. rewrite Ej in E0. injection E0 as -> ->. contradiction. }
  pose proof (Znth_Some_lt _ _ _ Ej) as Bj. rewrite (proj1 HM), zlen_map. replace (1 <? zlen named) with true by (symmetry; apply Z.ltb_lt; lia).
  assert (EN : match (match nn with Some nm => nm | None => None end) with
               | Some _ as names => match a with A1 _ => names | A2 _ _ => names end
               | None => match a with A1 _ => None | A2 c _ => Some (map LInt (arange c)) end end = names_after a None nn) by (unfold names_after; destruct nn as [[?|]|]; destruct a; reflexivity).
  match goal with |- context [get_column_color_buttons fmt M ?t ?s n ?names] => assert (EN' : names = Some (map fst named)) end.
  { rewrite <- Fs. rewrite <- E4 by lia. unfold names_after. destruct nn as [[?|]|]; destruct a; reflexivity. }
  rewrite EN'. clear EN EN'. unfold get_column_color_buttons. rewrite (Ec _ _ _ E0). cbn [bind].
  assert (El' : forall j nm cs, Znth named j = Some (nm, cs) -> py_get (map fst named) j = Ok nm) by (intros j' nm' cs' E; apply py_get_in; [now apply Znth_Some_lt in E|]; now rewrite Znth_map, E).
  rewrite (El' _ _ _ E0). cbn [bind]. rewrite zlen_map. replace (arange (zlen named)) with (arange (zlen named - 1 + 1)) by (f_equal; lia). rewrite tl_arange by lia. rewrite mapM_map.
  rewrite (mapM_only_err _ _ ValueError); [reflexivity| |].
  - intros i I. apply In_arange in I. destruct (Znth_ex named (i + 1)) as [[nm' cs'] E]; [lia|]. rewrite (Ec _ _ _ E). cbn [bind]. rewrite (El' _ _ _ E). cbn [bind]. destruct (min_max_ok cs') as [mn' [mx' [Em' [Ex' Hx']]]]; [eapply Ne; eapply Znth_In; eassumption|]. rewrite Em'. cbn [bind]. rewrite Ex'. cbn [bind].
    destruct (varies_dec cs') as [V|V].
    + left. destruct (label_colors_ok _ stops cs' mn' mx' PS Hx' V) as [out' [Eo' _]]. rewrite Eo'. cbn [rmap bind]. eexists. reflexivity.
    + right. rewrite (label_colors_err _ cs' mn' mx' Hx' V). reflexivity.
  - exists (j - 1). split; [apply In_arange; lia|]. replace (j - 1 + 1) with j by lia. rewrite (Ec _ _ _ Ej). cbn [bind]. rewrite (El' _ _ _ Ej). cbn [bind]. destruct (min_max_ok cs) as [mn' [mx' [Em' [Ex' Hx']]]]; [eapply Ne; eapply Znth_In; eassumption|]. rewrite Em'. cbn [bind]. rewrite Ex'. cbn [bind].
    rewrite (label_colors_err _ cs mn' mx' Hx' Vc). reflexivity.
Qed.

(** An entry of the menu shows what a plot of that column alone shows. *)
Theorem static_menu_alone g n_data cd d f cols st n dim pos scale pp stops named fig menu j b nm col nm' f' fig' :
  plot_request layout g n_data cd d f cols st dim pos scale (scale_used pp) stops named ->
  labels_possible dim (pp_bg pp) named ->
  plot (Ok g) n_data cd f (NCall st) dim n scale pp = Ok fig ->
  f_menu fig = Some menu -> Znth menu j = Some b -> Znth cols j = Some (nm, col) ->
  features d f' [(nm', col)] ->
  plot (Ok g) n_data cd f' (NCall st) dim n scale pp = Ok fig' ->
  b_label b = nm /\ f_colors fig' = b_colors b /\ f_text fig' = b_text b /\
  f_pos fig' = f_pos fig /\ f_edges fig' = f_edges fig /\ f_sizes fig' = f_sizes fig.
Proof.
  intros HR LP Ef Em Eb Ec HF' Ef'. destruct (static_plot_spec fz fmt fmt_no_blank viridis layout g n_data cd d f cols st n dim pos scale pp stops named HR LP) as [fig0 [E0 S0]].
  rewrite Ef in E0. injection E0 as <-. destruct HR as [Hn [HG [HD [HF [NC [LC [HC HR]]]]]]]. destruct (Znth_ex named j) as [[nm1 cs] En]; [rewrite <- (Forall2_zlen _ _ _ HC); now apply Znth_Some_lt in Ec|]. destruct (Forall2_Znth _ _ _ _ _ _ HC Ec En) as [A B]. cbn [fst snd] in A, B. subst nm1.
  assert (R' : plot_request layout g n_data cd d f' [(nm', col)] st dim pos scale (scale_used pp) stops [(nm', cs)]).
  { split; [assumption|]. split; [assumption|]. split; [assumption|]. split; [assumption|]. split; [discriminate|]. split; [intros ? ? [[= <- <-]|[]]; apply (LC nm); eapply Znth_In; eassumption|]. split; [|assumption]. constructor; [|constructor]. now split. }
  destruct (static_plot_spec fz fmt fmt_no_blank viridis layout g n_data cd d f' [(nm', col)] st n dim pos scale pp stops [(nm', cs)] R') as [fig1 [E1 S1]].
  { intros _ _ ? ? E V ? ? [[= <- <-]|[]]. rewrite Znth_0 in E. injection E as <- <-. assumption. }
  rewrite Ef' in E1. injection E1 as <-.
  destruct S0 as [D0 [G0 [Z0 [_ [_ [_ [ls [_ M0]]]]]]]]. destruct S1 as [D1 [G1 [Z1 [[nm1 C1] [T1 _]]]]]. rewrite Znth_0 in C1. injection C1 as _ C1. rewrite Em in M0. destruct M0 as [_ [_ M0]]. destruct (M0 j nm cs b En Eb) as [B1 [B2 [B3 _]]].
  split; [assumption|]. split; [congruence|]. split; [rewrite <- C1 in T1; eapply hover_texts_unique; eassumption|].
  split; [|split].
  - destruct D0 as [L0 D0], D1 as [L1 D1]. apply Znth_ext; [congruence|]. intros a Ha. destruct (Znth_ex (f_pos fig) a) as [x Ex]; [lia|]. destruct (Znth_ex (f_pos fig') a) as [y Ey]; [lia|]. rewrite Ex, Ey. f_equal. eapply is_column_unique; eauto.
  - destruct HR as [_ [_ [P _]]]. destruct HG as [_ [_ HE]]. clear - G0 G1 HE P. destruct G0 as [L0 D0], G1 as [L1 D1]. apply Znth_ext; [congruence|]. intros a Ha. destruct (Znth_ex (f_edges fig) a) as [x Ex]; [lia|]. destruct (Znth_ex (f_edges fig') a) as [y Ey]; [lia|]. rewrite Ex, Ey. f_equal.
    destruct (D0 _ _ Ex) as [Lx Dx], (D1 _ _ Ey) as [Ly Dy]. apply Znth_ext; [congruence|]. intros i Hi. assert (Hk : 0 <= i / 3 < zlen (g_edges g)) by (split; [apply Z.div_pos; lia|apply Z.div_lt_upper_bound; lia]).
    destruct (Znth_ex (g_edges g) (i / 3) Hk) as [[s t] Ee]. destruct (Dx _ _ _ Ee) as [p [q [x0 [y0 [P1 [P2 [P3 [P4 [P5 [P6 P7]]]]]]]]]]. destruct (Dy _ _ _ Ee) as [p' [q' [x1 [y1 [Q1 [Q2 [Q3 [Q4 [Q5 [Q6 Q7]]]]]]]]]].
    assert (p' = p) by congruence. assert (q' = q) by congruence. subst p' q'. assert (x1 = x0) by congruence. assert (y1 = y0) by congruence. subst x1 y1.
    pose proof (Z.div_mod i 3 ltac:(lia)) as DM. pose proof (Z.mod_pos_bound i 3 ltac:(lia)) as MB. assert (C : i = 3 * (i / 3) \/ i = 3 * (i / 3) + 1 \/ i = 3 * (i / 3) + 2) by lia. destruct C as [C | [C | C]]; rewrite C; congruence.
  - destruct Z0 as [-> _], Z1 as [-> _]. reflexivity.
Qed.

(** Whatever is chosen in the menu, the colours and the texts are those of the last
    choice; the colours of the labels too, unless it is the first entry. *)
Theorem static_menu_history g n_data cd d f cols st n dim pos scale pp stops named fig menu ks k v nm cs :
  plot_request layout g n_data cd d f cols st dim pos scale (scale_used pp) stops named ->
  labels_possible dim (pp_bg pp) named ->
  plot (Ok g) n_data cd f (NCall st) dim n scale pp = Ok fig -> f_menu fig = Some menu ->
  chosen menu (initial_view fig) (ks ++ [k]) v -> Znth named k = Some (nm, cs) ->
  v_colors v = cs /\ hover_texts fz fmt n (g_nodes g) cs (v_text v) /\
  (dim = 3 -> pp_bg pp = None -> varies (f_colors fig) -> 0 < k -> exists l, v_bg v = BgNodes l /\ label_colors stops cs l) /\
  (dim = 2 \/ pp_bg pp <> None \/ ~ varies (f_colors fig) -> v_bg v = f_bg fig).
Proof.
  intros HR LP Ef Em HC Ek. destruct (static_plot_spec fz fmt fmt_no_blank viridis layout g n_data cd d f cols st n dim pos scale pp stops named HR LP) as [fig0 [E0 S0]].
  rewrite Ef in E0. injection E0 as <-. destruct S0 as [_ [_ [_ [_ [_ [_ [ls [HB M]]]]]]]]. rewrite Em in M. destruct M as [_ [Lm M]].
  assert (Last : forall ks v0 v, chosen menu v0 (ks ++ [k]) v -> (forall b, In b menu -> b_bg b = None) -> v_bg v = v_bg v0).
  { clear - M. induction ks as [|k' ks IH]; cbn [app]; intros v0 v H Hb; inversion H as [|? ? b ? ? Eb C]; subst.
    - inversion C; subst. cbn. rewrite (Hb b) by (eapply Znth_In; eassumption). reflexivity.
    - rewrite (IH _ _ C Hb). cbn. rewrite (Hb b) by (eapply Znth_In; eassumption). reflexivity. }
  assert (Ends : forall ks v0 v, chosen menu v0 (ks ++ [k]) v -> exists v1 b, Znth menu k = Some b /\ v = choose v1 b).
  { clear. induction ks as [|k' ks IH]; cbn [app]; intros v0 v H; inversion H as [|? ? b ? ? Eb C]; subst; [|now apply (IH (choose v0 b))]. inversion C; subst. exists v0, b. now split. }
  destruct (Ends _ _ _ HC) as [v1 [b [Eb ->]]]. destruct (M _ _ _ _ Ek Eb) as [M1 [M2 [M3 M4]]]. cbn [choose v_colors v_text v_bg]. split; [assumption|]. split; [assumption|]. split.
  - intros -> Ebg V Hk. rewrite Ebg in HB. destruct HB as [[X _]|[[_ [X _]]|[_ [_ [-> _]]]]]; [discriminate|contradiction|]. destruct (b_bg b) as [l|]; [|lia]. exists l. split; [reflexivity|]. apply M4.
  - intros HX. assert (ls = None) as ->.
    { destruct (pp_bg pp); [apply HB|]. destruct HB as [[_ [_ X]]|[[_ [_ [_ X]]]|[X [Y _]]]]; [assumption|assumption|]. destruct HX as [->|[HX|HX]]; [discriminate|now exfalso|contradiction]. }
    assert (NB : forall b, In b menu -> b_bg b = None).
    { intros b' I. apply In_Znth in I. destruct I as [i [_ Ei]]. destruct (Znth_ex named i) as [[nm' cs'] En]; [apply Znth_Some_lt in Ei; lia|]. apply (M _ _ _ _ En Ei). }
    change (v_bg (choose v1 b) = f_bg fig). now rewrite (Last _ _ _ HC NB).
Qed.

(** An array given as statistic holds the colours of the nodes. *)
Theorem static_plot_array g n_data a n dim pos scale pp stops named :
  0 < n_data -> proper_graph n_data g -> rectangular (DArr a) -> rows_of (DArr a) = zlen (g_nodes g) -> 0 < cols_of (DArr a) ->
  columns (DArr a) named ->
  dim = 2 \/ dim = 3 -> layout g dim = Ok pos -> positions dim g pos -> scale <> 0%Qc ->
  proper_scale (scale_used pp) stops ->
  labels_possible dim (pp_bg pp) named ->
  exists fig, plot (Ok g) n_data None FNone (NArr a) dim n scale pp = Ok fig /\
    figure_shows fz fmt n g dim pos scale (pp_bg pp) (scale_used pp) stops named fig.
Proof.
  intros Hn [NE [HV HE]] HA LA CA HC Hd El P Hs PS LP. assert (NP : 0 < zlen (g_nodes g)) by (destruct (g_nodes g); [contradiction|]; rewrite zlen_cons; pose proof (zlen_nonneg l); lia).
  unfold plot_static_mapper_graph, validate_color_kwargs, checked_color_data. cbn [bind to_numpy check_shape alen]. rewrite zlen_map, zlen_arange by lia. replace (n_data =? 0) with false by (symmetry; apply Z.eqb_neq; lia). rewrite Z.eqb_refl. cbn [bind checked_statistic].
  assert (CS : check_shape a = Ok tt /\ alen a = zlen (g_nodes g)).
  { destruct a as [l|c rows]; cbn [rows_of cols_of check_shape alen] in *; (split; [|assumption]).
    - replace (zlen l =? 0) with false by (symmetry; apply Z.eqb_neq; lia). reflexivity.
    - replace ((zlen rows =? 0) || (c =? 0)) with false by (symmetry; apply orb_false_iff; split; apply Z.eqb_neq; lia). reflexivity. }
  destruct CS as [-> AL]. cbn [bind]. rewrite AL, Z.eqb_refl. cbn [negb].
  assert (RS : exists M, reshape_cols a = Ok M /\ has_node_colors M (map snd named) (zlen (g_nodes g)) /\ named <> [] /\ (forall nm cs, In (nm, cs) named -> zlen cs = zlen (g_nodes g)) /\
    (1 < zlen named -> match a with A1 _ => None | A2 c _ => Some (map LInt (arange c)) end = Some (map fst named))).
  { unfold reshape_cols. rewrite AL. replace (zlen (g_nodes g) =? 0) with false by (symmetry; apply Z.eqb_neq; lia). destruct a as [l|c rows]; cbn [rows_of cols_of columns] in *.
    - eexists. split; [reflexivity|]. subst named. split; [|split; [discriminate|split; [intros ? ? [[= <- <-]|[]]; assumption|cbn; lia]]]. split; [reflexivity|]. split; [cbn [m_rows]; now rewrite zlen_map|]. intros j cs E. cbn [map snd m_rows] in *. pose proof (Znth_Some_lt _ _ _ E) as B. cbn in B. assert (j = 0) by lia. subst j. rewrite Znth_0 in E. injection E as <-. clear. unfold is_column. induction l as [|x l IH]; [constructor|]. cbn [map]. constructor; [apply Znth_0|assumption].
    - destruct HC as [Lc HC]. eexists. split; [reflexivity|]. split; [|split; [|split]].
      + split; [cbn [m_cols]; rewrite zlen_map; lia|]. split; [assumption|]. intros j cs E. rewrite Znth_map in E. destruct (Znth named j) as [[nm cs']|] eqn:En; [|discriminate]. injection E as <-. apply (HC _ _ _ En).
      + intros ->. cbn in Lc. lia.
      + intros nm cs I. apply In_Znth in I. destruct I as [j [_ Ej]]. destruct (HC _ _ _ Ej) as [_ H]. apply Forall2_zlen in H. lia.
      + intros _. f_equal. apply Znth_ext; [rewrite !zlen_map, zlen_arange; lia|]. intros i Hi. rewrite zlen_map, zlen_arange in Hi by lia. rewrite !Znth_map, Znth_arange by lia. destruct (Znth_ex named i) as [[nm cs] E]; [lia|]. rewrite E. destruct (HC _ _ _ E) as [-> _]. reflexivity. }
  destruct RS as [M [ER [HM [NN [LN HN]]]]]. rewrite ER. cbn [bind apply_color_features to_numpy].
 unfold reshape_cols. cbn [alen].
  rewrite zlen_map, zlen_arange by lia. replace (n_data =? 0) with false by (symmetry; apply Z.eqb_neq; lia). cbn [bind].
  eapply (figure_core fz fmt fmt_no_blank viridis layout) with (named := named); try eassumption. reflexivity.
Qed.

(** Requests that are refused. *)
Theorem static_plot_errors :
  (forall e n_data cd f stat dim n scale pp, plot (Err e) n_data cd f stat dim n scale pp = Err e) /\
  (forall g n_data d f stat dim n scale pp, rows_of d <> n_data ->
     plot (Ok g) n_data (Some d) f stat dim n scale pp = Err ValueError) /\
  (forall g n_data cd f dim n scale pp, plot (Ok g) n_data cd f NOther dim n scale pp = Err ValueError) /\
  (forall g n_data cd f a dim n scale pp, rows_of (DArr a) <> zlen (g_nodes g) ->
     plot (Ok g) n_data cd f (NArr a) dim n scale pp = Err ValueError) /\
  (forall g n_data cd st dim n scale pp, plot (Ok g) n_data cd FTyped (NCall st) dim n scale pp = Err ValueError) /\
  (forall g n_data l c st dim n scale pp, plot (Ok g) n_data (Some (DSeries l)) (FCol c) (NCall st) dim n scale pp = Err ValueError) /\
  (forall g n_data l c st dim n scale pp, plot (Ok g) n_data (Some (DSeries l)) (FCols c) (NCall st) dim n scale pp = Err ValueError) /\
  (forall g n_data cd d f cols st n dim pos scale pp stops named,
     plot_request layout g n_data cd d f cols st 2 pos scale (scale_used pp) stops named -> dim <> 2 -> dim <> 3 ->
     plot (Ok g) n_data cd f (NCall st) dim n scale pp = Err ValueError).
Proof.
  assert (CC : forall n_data cd, (exists d, checked_color_data n_data cd = Ok d) \/ checked_color_data n_data cd = Err ValueError).
  { intros n_data cd. unfold checked_color_data. set (d := match cd with None => _ | Some d => d end). assert (S : check_shape (to_numpy d) = Ok tt \/ check_shape (to_numpy d) = Err ValueError).
    { destruct (to_numpy d); cbn; [destruct (_ =? _)|destruct (_ || _)]; auto. } destruct S as [->| ->]; cbn [bind]; [|auto]. destruct (_ =? _); [left; eauto|auto]. }
  split; [reflexivity|]. split; [|split; [|split; [|split; [|split; [|split]]]]].
  - intros g n_data d f stat dim n scale pp N. unfold plot_static_mapper_graph, validate_color_kwargs, checked_color_data. cbn [bind].
    assert (S : check_shape (to_numpy d) = Ok tt \/ check_shape (to_numpy d) = Err ValueError) by (destruct (to_numpy d); cbn; [destruct (_ =? _)|destruct (_ || _)]; auto). destruct S as [->| ->]; cbn [bind]; [|reflexivity].
    replace (alen (to_numpy d) =? n_data) with false; [reflexivity|]. symmetry. apply Z.eqb_neq. destruct d as [[?|? ?]|? ?|?]; exact N.
  - intros g n_data cd f dim n scale pp. unfold plot_static_mapper_graph, validate_color_kwargs. cbn [bind]. destruct (CC n_data cd) as [[d ->]| ->]; reflexivity.
  - intros g n_data cd f a dim n scale pp N. unfold plot_static_mapper_graph, validate_color_kwargs. cbn [bind]. destruct (CC n_data cd) as [[d ->]| ->]; [|reflexivity]. cbn [bind checked_statistic].
    assert (S : check_shape a = Ok tt \/ check_shape a = Err ValueError) by (destruct a; cbn; [destruct (_ =? _)|destruct (_ || _)]; auto). destruct S as [->| ->]; cbn [bind]; [|reflexivity].
    replace (alen a =? zlen (g_nodes g)) with false; [reflexivity|]. symmetry. apply Z.eqb_neq. destruct a; exact N.
  - intros g n_data cd st dim n scale pp. unfold plot_static_mapper_graph, validate_color_kwargs. cbn [bind]. destruct (CC n_data cd) as [[d ->]| ->]; reflexivity.
  - intros g n_data l c st dim n scale pp. unfold plot_static_mapper_graph, validate_color_kwargs, checked_color_data. cbn [bind to_numpy check_shape]. destruct (zlen l =? 0); [reflexivity|]. cbn [bind]. destruct (_ =? _); reflexivity.
  - intros g n_data l c st dim n scale pp. unfold plot_static_mapper_graph, validate_color_kwargs, checked_color_data. cbn [bind to_numpy check_shape]. destruct (zlen l =? 0); [reflexivity|]. cbn [bind]. destruct (_ =? _); reflexivity.
  - intros g n_data cd d f cols st n dim pos scale pp stops named [Hn [[NE [HV HE]] [HD [HF [NC [LC [HC [Hd [El [P [Hs PS]]]]]]]]]]] N2 N3. unfold plot_static_mapper_graph, validate_color_kwargs. cbn [bind]. rewrite (color_data_ok n_data cd d Hn HD). cbn [bind checked_statistic].
    destruct (features_ok d f cols n_data Hn (used_rectangular _ _ _ HD) NC HF LC) as [a [nn [m [E1 [E2 [E3 E4]]]]]]. rewrite E1. cbn [bind]. rewrite E2. cbn [bind].
    destruct (colored_columns _ _ _ _ HC) as [Fs [Ln [Fc Lc]]].
    destruct (node_statistics_ok m cols (g_nodes g) st (map snd named) E3 Fc) as [M [EM HM]]; [intros v i Iv Ii; now apply (HV v Iv)|].
    unfold calculate_graph_data. rewrite EM. cbn [bind]. destruct (sizeref_ok (g_nodes g) scale NE Hs) as [ref [Er _]]. rewrite Er. cbn [bind].
    destruct named as [|[nm0 cs0] named']; [inversion HC; subst; now exfalso|]. rewrite (mcol_ok M _ _ 0 cs0 HM) by (cbn [map snd]; apply Znth_0). cbn [bind].
    replace (negb ((dim =? 2) || (dim =? 3))) with true; [reflexivity|]. symmetry. apply negb_true_iff, orb_false_iff. split; now apply Z.eqb_neq.
Qed.

(** A graph without nodes cannot be plotted. *)
Theorem static_plot_empty_graph g n_data cd d f cols st dim n scale pp :
  g_nodes g = [] -> 0 < n_data -> color_data_used n_data cd d -> features d f cols -> cols <> [] ->
  (forall nm col, In (nm, col) cols -> zlen col = n_data) ->
  plot (Ok g) n_data cd f (NCall st) dim n scale pp = Err ValueError.
Proof.
  intros EN Hn HD HF NC LC. unfold plot_static_mapper_graph, validate_color_kwargs. cbn [bind]. rewrite (color_data_ok n_data cd d Hn HD). cbn [bind checked_statistic].
  destruct (features_ok d f cols n_data Hn (used_rectangular _ _ _ HD) NC HF LC) as [a [nn [m [E1 [E2 [E3 E4]]]]]]. rewrite E1. cbn [bind]. rewrite E2. cbn [bind].
  unfold calculate_graph_data. rewrite EN. reflexivity.
Qed.

End Static.

(** With the default statistic every request has its colours. *)
Theorem default_colors_exist g n_data cols st :
  default_statistic st -> proper_graph n_data g -> (forall nm col, In (nm, col) cols -> zlen col = n_data) ->
  exists named, colored_by st g cols named.
Proof.
  intros DS [_ [HV _]] LC. induction cols as [|[nm col] cols IH]; [exists []; constructor|]. destruct IH as [named Hn]; [intros; eapply LC; right; eassumption|].
  assert (E : exists cs, node_colors st (g_nodes g) col cs).
  { assert (Lc : zlen col = n_data) by (apply (LC nm); now left). clear - DS HV Lc. induction (g_nodes g) as [|v nodes IH]; [exists []; constructor|]. destruct IH as [cs Hc]; [intros; apply HV; now right|].
    destruct (HV v (or_introl eq_refl)) as [N R]. assert (V : exists vals, Forall2 (fun i x => Znth col i = Some x) (n_elements v) vals).
    { clear - R Lc. induction (n_elements v) as [|i l IH]; [exists []; constructor|]. destruct IH as [vals Hv]; [intros; apply R; now right|]. destruct (Znth_ex col i) as [x Ex]; [rewrite Lc; apply R; now left|]. exists (x :: vals). now constructor. }
    destruct V as [vals Hv]. destruct (DS vals) as [m [Em _]]; [intros ->; inversion Hv; congruence|]. exists (m :: cs). constructor; [|assumption]. now exists vals. }
  destruct E as [cs Hc]. exists ((nm, cs) :: named). constructor; [|assumption]. now split.
Qed.
Print Assumptions static_plot_empty_graph.
