(** What happens on requests outside the scope of the other theorems: Mapper plots, the interfaces to
    GUDHI, pipelines and neighbour graphs. *)
From Coq Require Import Ascii String.
From Verif Require Import Np NpFacts Fl FlFacts DiagProofs.
From Verif Require ExtTypes ExtModel ExtSpec ExtThms MParModel PipeModel PipeSpec PipeProofs PipeThms FlowModel ColorTypes MplotTypes MplotModel MplotSpec MplotThms3
  ValidModel ValidSpec ValidThms GraphModel KnnModel.
Open Scope Z_scope.

(** ** Colours of Mapper plots *)
Section Plots.
Import ColorTypes MplotTypes MplotModel MplotSpec.
Variable fz : Z -> string.
Variable fmt : shown -> string.
Variable viridis : colorscale_t.
Variable layout : mgraph -> Z -> res (list (list Qc)).
Notation plot := (plot_static_mapper_graph fz fmt viridis layout).
(** A mask for the columns of an array must have as many entries as there are columns; an object that
    can neither be called nor transform nor name columns is not a selection of columns; colour
    features without rows are refused. *)
Theorem static_plot_selections g n_data st dim n scale pp : 0 < n_data ->
  (forall c rows b, zlen rows = n_data -> 0 < c -> zlen b <> c ->
     plot (Ok g) n_data (Some (DArr (A2 c rows))) (FMask b) (NCall st) dim n scale pp = Err IndexError) /\
  (forall names rows, zlen rows = n_data -> names <> [] ->
     plot (Ok g) n_data (Some (DFrame names rows)) (FObj None None None) (NCall st) dim n scale pp = Err KeyError) /\
  (forall d f a, rows_of d = n_data -> 0 < cols_of d -> f d = Ok a -> rows_of (DArr a) = 0 ->
     plot (Ok g) n_data (Some d) (FObj (Some f) None None) (NCall st) dim n scale pp = Err ValueError).
Proof.
  intros Hn. unfold plot_static_mapper_graph, validate_color_kwargs, checked_color_data. cbn [bind]. split; [|split].
  - intros c rows b Hr Hc Hb. cbn [to_numpy check_shape alen]. rewrite Hr, (proj2 (Z.eqb_neq n_data 0)), (proj2 (Z.eqb_neq c 0)) by lia. cbn [orb bind]. rewrite Z.eqb_refl. cbn [bind checked_statistic apply_color_features array_get].
    now rewrite (proj2 (Z.eqb_neq _ _) Hb).
  - intros names rows Hr Hc. cbn [to_numpy check_shape alen]. rewrite Hr, (proj2 (Z.eqb_neq n_data 0)), (proj2 (Z.eqb_neq (zlen names) 0)); [| |lia].
    + cbn [orb bind]. rewrite Z.eqb_refl. reflexivity.
    + destruct names; [contradiction|]. rewrite zlen_cons. pose proof (zlen_nonneg names). lia.
  - intros d f a Hr Hc Ea Ha. assert (S : check_shape (to_numpy d) = Ok tt /\ alen (to_numpy d) = n_data).
    { destruct d as [[l|c rows]|names rows|l]; cbn in *; rewrite ?Hr, ?(proj2 (Z.eqb_neq n_data 0)), ?(proj2 (Z.eqb_neq _ 0)) by lia; now split. }
    destruct S as [-> ->]. cbn [bind]. rewrite Z.eqb_refl. cbn [bind checked_statistic apply_color_features]. rewrite Ea. cbn [bind]. unfold reshape_cols. assert (alen a = 0) as -> by (destruct a; exact Ha). cbn [Z.eqb bind]. reflexivity.
Qed.
(** Replacing the statistic in a text without blanks drops the last character. *)
Theorem replace_without_blank n s c x : no_blank (s ++ String c "") ->
  replace_summary_statistic fmt n (s ++ String c "")%string x = (s ++ " " ++ fmt (round_to_n_sig_figs x n))%string.
Proof.
  intros B. unfold replace_summary_statistic, str_prefix. rewrite (MplotThms3.rfind_none _ B). cbn [Z.ltb Z.compare].
  replace (Z.to_nat _) with (String.length s); [now rewrite MplotThms3.substring_app|].
  assert (L : String.length (s ++ String c "") = S (String.length s)) by (clear; induction s; cbn; congruence). rewrite L. lia.
Qed.
End Plots.

(** ** The interfaces to GUDHI: what is printed *)
Section Ext.
Import ExtTypes ExtModel ExtSpec.
Open Scope string_scope.
(** A file that does not exist: its name is printed, and there is no complex. *)
Theorem missing_file_message {C P} (L : cubical_lib (list Z * list fl) C P) (L' : cubical_lib (list Z * list fl * list bool) C P)
  (isfile : string -> bool) file : file <> "" -> isfile file = false ->
  cubical_init L isfile None None file = ([Printed ("file " ++ file ++ " not found.")], Ok (Cub None Null)) /\
  periodic_init L' isfile None None None file = ([Printed ("file " ++ file ++ " not found.")], Ok (Cub None Null)).
Proof. intros N F. unfold cubical_init, periodic_init. rewrite (proj2 (String.eqb_neq _ _) N), F. now split. Qed.
(** Questions asked before persistence name the method (write_persistence_diagram names another one). *)
Theorem not_computed_messages V T P (L : tree_lib V T P) h :
  Forall (fun c => is_persistence c = false) h ->
  let o := fst (run (tree_step L) (simplex_tree_init L) h) in
  let says name := [Printed ("`" ++ name ++ "` requires persistence function to be launched first.")] in
  tree_step L o Betti = (o, says "betti_numbers", Ok (AInts [])) /\
  (forall a b, tree_step L o (PersistentBetti a b) = (o, says "persistent_betti_numbers", Ok (AInts []))) /\
  (forall d, tree_step L o (Intervals d) = (o, says "intervals_in_dim", Ok (AArray (NdArray [0] [])))) /\
  tree_step L o Pairs = (o, says "persistence_pairs", Ok (ASimplexPairs [])) /\
  (forall file, tree_step L o (WriteDiagram file) = (o, says "intervals_in_dim", Ok ANone)).
Proof.
  intros F o says. assert (N : st_pcoh o = Null) by (unfold o; rewrite ExtThms.pcoh_run by exact F; reflexivity).
  clearbody o. destruct o as [t pc]. cbn in N. subst pc. cbn. repeat split; intros; reflexivity.
Qed.
End Ext.

(** ** Pipelines *)
Section Pipes.
Import MParModel PipeModel PipeSpec.
Open Scope string_scope.
Lemma unique_iff l : names_unique l = true <-> NoDup l.
Proof.
  induction l as [|n l IH]; cbn; [split; [constructor|reflexivity]|]. rewrite andb_true_iff, negb_true_iff, IH. split.
  - intros [H N]. constructor; [|assumption]. intros I. assert (existsb (String.eqb n) l = true); [|congruence]. apply existsb_exists. exists n. split; [assumption|apply String.eqb_refl].
  - intros H. inversion H; subst. split; [|assumption]. destruct (existsb _ _) eqn:E; [|reflexivity]. apply existsb_exists in E. destruct E as [m [I E]]. apply String.eqb_eq in E. subst. contradiction.
Qed.
(** Pipelines without steps, with a repeated, reserved or nested name, are refused by fit with a
    ValueError, before any step is fitted. *)
Theorem malformed_pipeline_refused {O X Y V R} (M : methods O X Y V R) caching steps x y ps :
  steps = [] \/ ~ NoDup (map fst steps) \/
  (exists n, In n (map fst steps) /\ (n = "steps" \/ n = "memory" \/ n = "verbose" \/ exists a b, n = a ++ "__" ++ b)) ->
  pipe_fit M caching steps x y ps = Err ValueError.
Proof.
  intros H. unfold pipe_fit, fit_steps. assert (E : validate_steps M steps = Err ValueError); [|now rewrite E].
  unfold validate_steps. destruct (rev steps) as [|[n0 s0] b] eqn:Er; [reflexivity|]. destruct H as [->|[H|[n [Hn H]]]]; [discriminate| |].
  - destruct (names_unique (map fst steps)) eqn:U; [apply unique_iff in U; contradiction|reflexivity].
  - destruct (names_unique _); [|reflexivity]. cbn [negb]. destruct (existsb _ (map fst steps)) eqn:Ek; [reflexivity|]. destruct (existsb has_dunder _) eqn:Ed; [reflexivity|]. exfalso.
    assert (K : existsb (String.eqb n) ["steps"; "memory"; "verbose"] = false).
    { destruct (existsb (String.eqb n) _) eqn:E; [|reflexivity]. rewrite <- Ek. symmetry. apply existsb_exists. eauto. }
    assert (D : has_dunder n = false). { destruct (has_dunder n) eqn:E; [|reflexivity]. rewrite <- Ed. symmetry. apply existsb_exists. eauto. }
    destruct H as [->|[->|[->|[a [b' E]]]]]; try discriminate K.
    unfold has_dunder in D. destruct (snd (partition n)) eqn:Q; [discriminate|]. pose proof (proj1 (PipeProofs.partition_none n) Q) as Q'. now apply (Q' a b').
Qed.
(** A pipeline that can be fitted without parameters: a parameter whose name has no "__" is a
    ValueError (here: the first parameter). *)
Theorem unnamed_parameter_refused {O X Y V R} (M : methods O X Y V R) caching steps x y p v ps steps' :
  pipe_fit M caching steps x y [] = Ok steps' -> (forall a b, p <> a ++ "__" ++ b) ->
  pipe_fit M caching steps x y ((p, v) :: ps) = Err ValueError.
Proof.
  intros H N. unfold pipe_fit, fit_steps in *. destruct (validate_steps M steps) as [u|e]; [|discriminate]. cbn [bind split_params].
  apply (proj2 (PipeProofs.partition_none p)) in N. destruct (partition p) as [a [b|]]; [discriminate|reflexivity].
Qed.
(** A pipeline of a sliding window, a Takens embedding, Vietoris-Rips persistence and a feature cannot
    predict, score or be inverted, and clones of its steps are not fitted. *)
Theorem flow_cannot_predict {A B} (junk : DiagTypes.pt) (ripser : Z -> fl -> list (list A) -> list (list (fl * fl)))
  steps n o x y sw caching ps : let pipe := (steps ++ [(n, SObj o)])%list in let M := FlowModel.flow (B := B) junk ripser in
  pipe_predict M pipe x = Err AttributeError /\ pipe_fit_predict M caching pipe x y ps = Err AttributeError /\
  pipe_score M pipe x y sw = Err AttributeError /\ pipe_inverse_transform M pipe x y = Err AttributeError /\
  transform M (clone M o) x = Err NotFittedError /\ (forall x' p, fit M (clone M o) x' y p = fit M o x' y p).
Proof.
  cbn zeta. pose proof (PipeThms.missing_method (FlowModel.flow (B := B) junk ripser) steps n o x y sw caching ps) as H. cbn zeta in H. decompose [and] H. repeat split; auto.
  - destruct o as [| | |[] ? ?]; destruct x; reflexivity.
  - intros x' p. destruct o; reflexivity.
Qed.
End Pipes.

(** ** KNeighborsGraph: negative precomputed distances are refused *)
Section Knn.
Import ValidModel KnnModel.
Theorem negative_distances_refused {M} dist nearest sparse_graph k md p (mp : option M) X0 e n data :
  kng_fit (kng_init k md "precomputed" p mp) X0 = Ok e -> 1 <= n -> zlen data = n * n ->
  (forall v, In v data -> exists q, v = Fin q) -> (exists q, In (Fin q) data /\ (q < 0)%Qc) ->
  kng_transform dist nearest sparse_graph e (CArr (MkArr Dense [1; n; n] data)) = Err ValueError.
Proof.
  intros EF Hn L Fi [q [Iq Hq]]. unfold kng_fit in EF. destruct (check_point_clouds X0 _ _ _); cbn [bind] in EF; [|discriminate]. injection EF as <-.
  unfold kng_transform. cbn [is_precomputed metric KnnModel.p metric_params mode n_neighbors kng_init].
  destruct (ValidThms.check_point_clouds_array (MkArr Dense [1; n; n] data) true true None eq_refl) as [[a0 [n1 [m1 [w1 [_ [_ [_ [_ [E _]]]]]]]]]|[_ E]]; change (String.eqb "precomputed" "precomputed") with true; rewrite E; [|reflexivity]. clear E.
  cbn [bind fst samples a_shape a_data a_kind].
  replace data with (concat [data]) at 1 by apply app_nil_r. rewrite np_reshape_concat; [|reflexivity|intros y [<-|[]]; assumption|nia]. cbn [bind map mapM].
  unfold kneighbors_graph. cbn [a_kind a_shape a_data]. destruct (k <=? 0); [reflexivity|]. unfold distance_matrix. rewrite (proj2 (Z.ltb_ge n 1)) by lia. cbn [orb].
  assert (forallb isfin data = true) as -> by (apply forallb_forall; intros v Hv; destruct (Fi v Hv) as [r ->]; reflexivity). cbn [negb].
  assert (E : exists rows, DiagModel.np_reshape n n data = Ok rows) by (unfold DiagModel.np_reshape; rewrite L, Z.eqb_refl; eauto).
  destruct E as [rows ->]. cbn [bind]. change (String.eqb "precomputed" "precomputed") with true. rewrite Z.eqb_refl. cbn [negb].
  destruct (forallb (fle f0) data) eqn:P; [|reflexivity]. rewrite forallb_forall in P. specialize (P _ Iq). unfold fle, f0 in P. destruct (Qcleb_spec 0 q); [exfalso; qlra|discriminate].
Qed.
Example negative_distances_example : exists q, In (Fin q) [Fin 0; Fin (- (1)); Fin (- (1)); Fin 0]%Qc /\ (q < 0)%Qc.
Proof. exists (- (1))%Qc. split; [now right; left|reflexivity]. Qed.
End Knn.

Print Assumptions static_plot_selections.
Print Assumptions replace_without_blank.
Print Assumptions missing_file_message.
Print Assumptions not_computed_messages.
Print Assumptions malformed_pipeline_refused.
Print Assumptions unnamed_parameter_refused.
Print Assumptions flow_cannot_predict.
Print Assumptions negative_distances_refused.
