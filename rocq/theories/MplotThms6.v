(** C72: plots of Mapper graphs; behaviour that contradicts the documentation; examples. *)
From Coq Require Import Ascii String Qround Sorted.
From Verif Require Import Np NpFacts Fl FlFacts VecModel ColorTypes ColorModel ColorSpec MplotTypes MplotModel MplotSpec MplotThms MplotThms2 MplotThms3 MplotThms4 MplotThms5.
From Verif Require MapperProofs2 MapperModel MapperSpec MapperThms.
Open Scope Z_scope.

(** ** From the nerve to the plot *)
(** The graph that [Nerve] returns, as far as the plot reads it. *)
Definition graph_of (nodes : list ((Z * Z) * list Z)) (es : list MapperModel.edge) : mgraph :=
  MGraph (map (fun nd => MNode (fst (fst nd)) (snd (fst nd)) (snd nd)) nodes) (map (fun e => (MapperModel.e_src e, MapperModel.e_dst e)) es).
Theorem nerve_graph_proper X mi store nodes es :
  (forall sample, In sample X -> NoDup sample) ->
  MapperModel.nerve_fit_transform mi store false X = Ok (map Some nodes, es) -> proper_graph (zlen X) (graph_of nodes es).
Proof.
  intros D E. destruct (concat X) as [|a t] eqn:Ec; [rewrite (MapperThms.nerve_empty X mi store false Ec) in E; discriminate|].
  destruct (MapperThms.nerve_spec X mi store D) as [nodes' [es' [E' [[N1 N2] [_ M]]]]]; [congruence|].
  assert (map Some nodes' = map Some nodes /\ es' = es) as [Em ->] by (rewrite E in E'; injection E' as -> ->; auto).
  assert (nodes' = nodes) as ->.
  { revert Em. clear. revert nodes. induction nodes' as [|x l IH]; intros [|y r] E; try discriminate; [reflexivity|]. cbn in E. injection E as -> E. f_equal. now apply IH. }
  unfold graph_of. split; [|split]; cbn [g_nodes g_edges].
  - intros N. destruct nodes as [|nd nodes]; [|discriminate]. assert (I : In a (map fst (@nil ((Z * Z) * list Z)))) by (rewrite N1; apply MapperProofs2.first_occ_In; rewrite Ec; now left). destruct I.
  - intros v I. apply in_map_iff in I. destruct I as [[k l] [<- I]]. cbn [n_elements snd]. destruct (N2 k l I) as [A [_ B]]. split; [assumption|]. intros i Ii. apply B in Ii. destruct Ii as [sample [Es _]]. now apply Znth_Some_lt in Es.
  - intros s t0 I. apply in_map_iff in I. destruct I as [e [[= <- <-] I]]. apply M in I. destruct I as [k1 [l1 [k2 [l2 [inter [H [A [B _]]]]]]]]. rewrite zlen_map. apply Znth_Some_lt in A, B. lia.
Qed.
(** The plot of a Mapper graph with default arguments: node colours are the means of
    the indices of the elements. *)
Theorem mapper_plot_default fz fmt viridis layout X mi store nodes es pos stops :
  (forall s, no_blank (fmt s)) ->
  (forall sample, In sample X -> NoDup sample) ->
  MapperModel.nerve_fit_transform mi store false X = Ok (map Some nodes, es) ->
  layout (graph_of nodes es) 2 = Ok pos -> positions 2 (graph_of nodes es) pos ->
  proper_scale viridis stops ->
  exists fig, plot_static_mapper_graph fz fmt viridis layout (Ok (graph_of nodes es)) (zlen X) None FNone NNone 2 (Some 3) (qz 12) (PParams None None) = Ok fig /\
    f_menu fig = None /\ f_sizes fig = map (fun nd => zlen (snd nd)) nodes /\
    Forall2 (fun nd c => is_mean (map qz (snd nd)) c) nodes (f_colors fig) /\
    hover_texts fz fmt (Some 3) (g_nodes (graph_of nodes es)) (f_colors fig) (f_text fig) /\
    draws_nodes 2 pos (f_pos fig) /\ draws_edges 2 pos (g_edges (graph_of nodes es)) (f_edges fig).
Proof.
  intros HB D E El P PS. pose proof (nerve_graph_proper X mi store nodes es D E) as G. set (g := graph_of nodes es) in *.
  assert (NX : 0 < zlen X). { destruct X as [|s X]; [rewrite (MapperThms.nerve_empty [] mi store false eq_refl) in E; discriminate|]. rewrite zlen_cons. pose proof (zlen_nonneg X). lia. }
  set (cols := [(LInt 0, map qz (arange (zlen X)))]). assert (LC : forall nm col, In (nm, col) cols -> zlen col = zlen X) by (intros ? ? [[= <- <-]|[]]; rewrite zlen_map, zlen_arange; lia).
  destruct (default_colors_exist g (zlen X) cols np_mean np_mean_default G LC) as [named Hn].
  assert (R : plot_request layout g (zlen X) None (DArr (A1 (map qz (arange (zlen X))))) FNone cols np_mean 2 pos (qz 12) (match pp_scale (PParams None None) with Some s => s | None => viridis end) stops named).
  { split; [assumption|]. split; [assumption|]. split.
    { exists (map qz (arange (zlen X))). split; [reflexivity|]. split; [rewrite zlen_map, zlen_arange; lia|]. intros k x Ek. pose proof (Znth_Some_lt _ _ _ Ek) as B. rewrite zlen_map, zlen_arange in B by lia. rewrite Znth_map, Znth_arange in Ek by lia. now injection Ek. }
    split; [now constructor|]. split; [discriminate|]. split; [assumption|]. split; [assumption|]. split; [now left|]. split; [assumption|]. split; [assumption|]. split; [|assumption]. rewrite <- qz_0, qz_inj. lia. }
  destruct (static_plot_default fz fmt HB viridis layout g (zlen X) None _ FNone cols np_mean (Some 3) 2 pos (qz 12) (PParams None None) stops named np_mean_default R) as [fig [Ef [S1 [S2 [[S3 _] [[nm0 S4] [S5 [_ [ls [_ S6]]]]]]]]]]; [intros X0; discriminate|].
  exists fig. split; [exact Ef|]. unfold cols in Hn. inversion Hn as [|? [nm cs] ? ? [En Hc] Hr]; subst. inversion Hr; subst. rewrite Znth_0 in S4. injection S4 as _ S4. cbn [snd] in Hc. subst cs.
  split; [destruct (f_menu fig); [destruct S6 as [S6 _]; cbn in S6; lia|reflexivity]|]. split; [rewrite S3; unfold g, graph_of; cbn [g_nodes]; rewrite map_map; reflexivity|]. split; [|auto].
  destruct G as [_ [HV _]]. unfold g, graph_of in Hc, HV. cbn [g_nodes] in Hc, HV. clear - Hc HV. revert Hc. generalize (f_colors fig). induction nodes as [|[k l] nodes IH]; intros cs Hc; inversion Hc as [|? c ? cs' [vals [Fv Es]] Hr]; subst; constructor; [|apply IH; [intros; apply HV; now right|assumption]].
  cbn [map n_elements snd] in *. assert (vals = map qz l) as ->.
  { destruct (HV _ (or_introl eq_refl)) as [_ B]. cbn [n_elements snd] in B. clear - Fv B. induction Fv as [|i x l vals Ex F IH]; [reflexivity|]. cbn [map]. f_equal; [|apply IH; intros; apply B; now right].
    specialize (B i (or_introl eq_refl)). rewrite Znth_map, Znth_arange in Ex by lia. now injection Ex. }
  destruct (np_mean_default (map qz l)) as [m [Em Hm]]; [|rewrite Es in Em; now injection Em as ->]. destruct (HV _ (or_introl eq_refl)) as [N _]. cbn in N. now destruct l.
Qed.

(** ** An example that meets the hypotheses *)
Definition ex_stops : list (Qc * t3 Qc) := [(0%Qc, T3 (qz 0) (qz 0) (qz 0)); (1%Qc, T3 (qz 255) (qz 255) (qz 255))].
Definition ex_viridis : colorscale_t := Stops (map (fun s => (fst s, RgbText (snd s))) ex_stops).
Definition ex_graph : mgraph := MGraph [MNode 0 0 [0; 1]; MNode 1 0 [1; 2]] [(0, 1)].
Definition ex_frame : cdata := DFrame [LStr "a"; LStr "b"] [[qz 1; qz 7]; [qz 3; qz 5]; [qz 5; qz 5]].
Definition ex_layout (g : mgraph) (dim : Z) : res (list (list Qc)) := Ok (map (fun v => map (fun k => qz (k + n_pullback v)) (arange dim)) (g_nodes g)).
Definition ex_fz (z : Z) : string := if z =? 0 then "0" else if z =? 1 then "1" else if z =? 2 then "2" else "?".
Definition ex_fmt (s : shown) : string :=
  match s with Zero => "0" | Num q => if Qc_eq_dec q (qz 2) then "2.0" else if Qc_eq_dec q (qz 4) then "4.0" else if Qc_eq_dec q (qz 6) then "6.0" else "5.0" end.
Definition ex_named : list (label * list Qc) := [(LStr "a", [qz 2; qz 4]); (LStr "b", [qz 6; qz 5])].
Lemma ex_fmt_ok s : no_blank (ex_fmt s).
Proof. destruct s as [|q]; cbn; [repeat split; discriminate|]. repeat (destruct (Qc_eq_dec _ _); [cbn; repeat split; discriminate|]). cbn. repeat split; discriminate. Qed.
Lemma qle_bool a b : Qle_bool (this a) (this b) = true -> (a <= b)%Qc.
Proof. intros H. unfold Qcle. now apply Qle_bool_iff. Qed.
Lemma ex_viridis_ok : proper_scale ex_viridis ex_stops.
Proof.
  split; [|split].
  - split; [discriminate|]. exists true. cbn. constructor; [split; [reflexivity|split; reflexivity]|]. constructor; [split; [reflexivity|split; reflexivity]|constructor].
  - intros i j s c s' c' H Ei Ej. pose proof (Znth_Some_lt _ _ _ Ei) as Bi. pose proof (Znth_Some_lt _ _ _ Ej) as Bj. cbn in Bi, Bj.
    assert (I : i = 0 \/ i = 1) by lia. assert (J : j = 0 \/ j = 1) by lia. destruct I as [->| ->], J as [->| ->]; try lia; injection Ei as <- <-; injection Ej as <- <-; apply qle_bool; reflexivity.
  - intros s c [[= <- <-]|[[= <- <-]|[]]]; repeat split; apply qle_bool; reflexivity.
Qed.
Lemma qc_eq a b : Qeq_bool (this a) (this b) = true -> a = b.
Proof. intros H. apply Qc_is_canon. now apply Qeq_bool_iff. Qed.
Lemma qc_neq a b : Qeq_bool (this a) (this b) = false -> a <> b.
Proof. intros H ->. rewrite (proj2 (Qeq_bool_iff _ _) (Qeq_refl _)) in H. discriminate. Qed.
Lemma ex_request dim : dim = 2 \/ dim = 3 ->
  exists pos, plot_request ex_layout ex_graph 3 (Some ex_frame) ex_frame FNone [(LStr "a", [qz 1; qz 3; qz 5]); (LStr "b", [qz 7; qz 5; qz 5])] np_mean dim pos (qz 12) ex_viridis ex_stops ex_named.
Proof.
  intros Hd. eexists. split; [lia|]. split.
  { split; [discriminate|]. split.
    - intros v [<-|[<-|[]]]; (split; [discriminate|]); intros i [<-|[<-|[]]]; lia.
    - intros s t [[= <- <-]|[]]. cbn. lia. }
  split. { split; [reflexivity|]. split; [|split; [reflexivity|cbn; lia]]. intros row [<-|[<-|[<-|[]]]]; reflexivity. }
  split. { constructor. split; [reflexivity|]. intros j nm col E. pose proof (Znth_Some_lt _ _ _ E) as B. cbn in B. assert (J : j = 0 \/ j = 1) by lia. destruct J as [->| ->]; injection E as <- <-; repeat constructor. }
  split; [discriminate|]. split; [intros ? ? [[= <- <-]|[[= <- <-]|[]]]; reflexivity|].
  split. { assert (C : forall col v c a b, n_elements v = [a; b] -> forall x y, Znth col a = Some x -> Znth col b = Some y -> np_mean [x; y] = Ok c -> node_color np_mean col v c) by (intros col v c a b E x y Ea Eb Em; exists [x; y]; rewrite E; split; [now repeat constructor|assumption]).
    unfold ex_named. constructor; [split; [reflexivity|]|constructor; [split; [reflexivity|]|constructor]]; (constructor; [|constructor; [|constructor]]); (eapply C; [reflexivity|reflexivity|reflexivity|]); unfold np_mean; f_equal; apply qc_eq; reflexivity. }
  split; [assumption|]. split; [reflexivity|]. split; [split; [reflexivity|]|].
  - intros p [<-|[<-|[]]]; rewrite zlen_map, zlen_arange; lia.
  - split; [apply qc_neq; reflexivity|apply ex_viridis_ok].
Qed.
Lemma ex_labels_possible dim : labels_possible dim None ex_named.
Proof.
  intros _ _ _ _ _ _ nm cs [[= <- <-]|[[= <- <-]|[]]].
  - exists (qz 2), (qz 4). split; [now left|]. split; [right; now left|]. apply qc_neq. reflexivity.
  - exists (qz 6), (qz 5). split; [now left|]. split; [right; now left|]. apply qc_neq. reflexivity.
Qed.
Example ex_plot : exists fig pos, plot_static_mapper_graph ex_fz ex_fmt ex_viridis ex_layout (Ok ex_graph) 3 (Some ex_frame) FNone (NCall np_mean) 3 (Some 3) (qz 12) (PParams None None) = Ok fig /\
  figure_shows ex_fz ex_fmt (Some 3) ex_graph 3 pos (qz 12) None ex_viridis ex_stops ex_named fig.
Proof.
  destruct (ex_request 3) as [pos R]; [now right|].
  destruct (static_plot_spec ex_fz ex_fmt ex_fmt_ok ex_viridis ex_layout _ _ _ _ _ _ _ (Some 3) 3 pos (qz 12) (PParams None None) _ _ R (ex_labels_possible 3)) as [fig [E S]]. exists fig, pos. now split.
Qed.

(** ** What the documentation says, refuted *)
(** Choosing another entry and then the first one again does not restore the colours
    of the labels. *)
Theorem static_menu_first_refuted : exists fig menu v,
  plot_static_mapper_graph ex_fz ex_fmt ex_viridis ex_layout (Ok ex_graph) 3 (Some ex_frame) FNone (NCall np_mean) 3 (Some 3) (qz 12) (PParams None None) = Ok fig /\
  f_menu fig = Some menu /\ chosen menu (initial_view fig) [1; 0] v /\ v_colors v = f_colors fig /\ v_bg v <> f_bg fig.
Proof.
  eexists. eexists. eexists. split; [vm_compute; reflexivity|]. split; [reflexivity|]. split; [eapply chosen_cons; [reflexivity|eapply chosen_cons; [reflexivity|constructor]]|]. split; [reflexivity|]. cbn. discriminate.
Qed.
(** An array of node colours does not make color_features irrelevant: a plot without
    it, an error with it. *)
Theorem array_ignores_features_refuted : exists fig a,
  plot_static_mapper_graph ex_fz ex_fmt ex_viridis ex_layout (Ok ex_graph) 3 None FNone (NArr a) 2 (Some 3) (qz 12) (PParams None None) = Ok fig /\
  plot_static_mapper_graph ex_fz ex_fmt ex_viridis ex_layout (Ok ex_graph) 3 None (FCol (LInt 0)) (NArr a) 2 (Some 3) (qz 12) (PParams None None) = Err IndexError /\
  exists f fig' menu menu', plot_static_mapper_graph ex_fz ex_fmt ex_viridis ex_layout (Ok ex_graph) 3 (Some ex_frame) f (NArr a) 2 (Some 3) (qz 12) (PParams None None) = Ok fig' /\
    f_menu fig = Some menu /\ f_menu fig' = Some menu' /\ map b_label menu = [LInt 0; LInt 1] /\ map b_label menu' = [LStr "b"].
Proof.
  eexists. exists (A2 2 [[qz 1; qz 2]; [qz 3; qz 4]]). split; [vm_compute; reflexivity|]. split; [vm_compute; reflexivity|].
  exists (FCols [LStr "b"]). eexists. eexists. eexists. split; [vm_compute; reflexivity|]. split; [reflexivity|]. split; [reflexivity|]. split; reflexivity.
Qed.

(** A boolean mask selects columns, but the menu is built from the mask: with all the columns kept,
    the entries are all called "True"; with at least two kept and one dropped, there are more names
    than columns, and no plot. *)
Theorem static_mask_refuted :
  let data := Some (DArr (A2 3 [[qz 1; qz 7; qz 0]; [qz 3; qz 5; qz 1]; [qz 5; qz 5; qz 2]])) in
  (exists fig menu,
    plot_static_mapper_graph ex_fz ex_fmt ex_viridis ex_layout (Ok ex_graph) 3 data (FMask [true; true; true]) (NCall np_mean) 2 (Some 3) (qz 12) (PParams None None) = Ok fig /\
    f_menu fig = Some menu /\ map b_label menu = [LStr "True"; LStr "True"; LStr "True"]) /\
  plot_static_mapper_graph ex_fz ex_fmt ex_viridis ex_layout (Ok ex_graph) 3 data (FMask [true; false; true]) (NCall np_mean) 2 (Some 3) (qz 12) (PParams None None) = Err IndexError /\
  exists fig fig' menu,
    plot_static_mapper_graph ex_fz ex_fmt ex_viridis ex_layout (Ok ex_graph) 3 data (FCols [LInt 0; LInt 2]) (NCall np_mean) 2 (Some 3) (qz 12) (PParams None None) = Ok fig /\
    f_menu fig = Some menu /\ map b_label menu = [LInt 0; LInt 2] /\
    plot_static_mapper_graph ex_fz ex_fmt ex_viridis ex_layout (Ok ex_graph) 3 data (FMask [false; false; true]) (NCall np_mean) 2 (Some 3) (qz 12) (PParams None None) = Ok fig' /\
    f_menu fig' = None.
Proof.
  split; [|split].
  - eexists. eexists. split; [vm_compute; reflexivity|]. split; reflexivity.
  - vm_compute. reflexivity.
  - eexists. eexists. eexists. split; [vm_compute; reflexivity|]. split; [reflexivity|]. split; [reflexivity|]. split; [vm_compute; reflexivity|]. reflexivity.
Qed.

Print Assumptions round_shows.
Print Assumptions static_mask_refuted.
Print Assumptions static_plot_spec.
Print Assumptions static_plot_default.
Print Assumptions static_plot_constant_column.
Print Assumptions static_menu_alone.
Print Assumptions static_menu_history.
Print Assumptions static_plot_array.
Print Assumptions static_plot_errors.
Print Assumptions default_colors_exist.
Print Assumptions nerve_graph_proper.
Print Assumptions mapper_plot_default.
Print Assumptions static_menu_first_refuted.
Print Assumptions array_ignores_features_refuted.
