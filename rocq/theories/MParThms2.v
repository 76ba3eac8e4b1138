(** Property theorems for the parameter interface of Mapper pipelines (C49): reading the
    parameters, unknown names, construction. *)
From Coq Require Import String Ascii.
From Verif Require Import Np NpFacts MParModel MParProofs MParSpec MParThms.
Open Scope Z_scope.
Open Scope string_scope.

(** ** get_mapper_params *)
Lemma filter_all {A B} (f : B -> bool) (g : A -> B) l : (forall x, f (g x) = true) -> filter f (map g l) = map g l.
Proof. intros H. induction l as [|a t IH]; [reflexivity|]. cbn. now rewrite H, IH. Qed.
Lemma filter_none {A B} (f : B -> bool) (g : A -> B) l : (forall x, f (g x) = false) -> filter f (map g l) = [].
Proof. intros H. induction l as [|a t IH]; [reflexivity|]. cbn. now rewrite H. Qed.
Definition keep (pre key : string) : bool :=
  prefix pre key
       && negb (prefix (pre ++ "steps") key) && negb (prefix (pre ++ "memory") key)
       && negb (prefix (pre ++ "verbose") key) && negb (prefix (pre ++ "transformer_list") key)
       && negb (prefix (pre ++ "n_jobs") key) && negb (prefix (pre ++ "transformer_weights") key)
       && negb (prefix (pre ++ "map_and_cover") key).
(** The entries of get_params for the object [e] at the path [P]. *)
Definition rep (P : string) (e : est) : list (string * est) :=
  (P, e) :: map (fun q => (P ++ "__" ++ fst q, snd q)) (get_params e).
Lemma append_assoc a b c : (a ++ b) ++ c = a ++ (b ++ c).
Proof. induction a as [|x a IH]; [reflexivity|]. cbn. now rewrite IH. Qed.
Lemma map_flat_map {A B C} (f : A -> list B) (g : B -> C) l : map g (flat_map f l) = flat_map (fun x => map g (f x)) l.
Proof. induction l as [|a t IH]; [reflexivity|]. cbn. now rewrite map_app, IH. Qed.
Lemma rep_node P attr fs : rep P (Node attr fs) =
  (P, Node attr fs) :: (match attr with Some a => [(P ++ "__" ++ a, Steps)] | None => [] end) ++
  flat_map (fun p => rep (P ++ "__" ++ fst p) (snd p)) fs.
Proof.
  unfold rep at 1. cbn [get_params]. rewrite map_app, map_flat_map. f_equal. f_equal; [now destruct attr|].
  apply flat_map_ext. intros p. unfold rep. cbn [map fst snd]. rewrite map_map. f_equal. apply map_ext. intros q. cbn [fst snd].
  now rewrite !append_assoc.
Qed.
Lemma clean_app pre (a b : list (string * est)) : clean_dict_keys (a ++ b)%list pre = (clean_dict_keys a pre ++ clean_dict_keys b pre)%list.
Proof. unfold clean_dict_keys. now rewrite filter_app, map_app. Qed.
Lemma clean_cons_no pre k v b : keep pre k = false -> clean_dict_keys ((k, v) :: b) pre = clean_dict_keys b pre.
Proof. intros H. unfold keep in H. unfold clean_dict_keys. cbn [filter fst]. rewrite H. reflexivity. Qed.
Lemma clean_rep_no pre P e : (forall x, keep pre (P ++ x) = false) -> clean_dict_keys (rep P e) pre = [].
Proof.
  intros H. unfold rep, clean_dict_keys. cbn [filter fst].
  change (if keep pre P then ?a else ?b) with (if keep pre P then a else b).
  pose proof (H "") as H0. assert (E : P ++ "" = P) by (clear; induction P; cbn; congruence). rewrite E in H0. unfold keep in H0. rewrite H0.
  rewrite filter_none; [reflexivity|]. intros q. apply (H ("__" ++ fst q)).
Qed.
Lemma clean_rep_yes pre s e : (forall x, keep pre (pre ++ (name s ++ x)) = true) -> clean_dict_keys (rep (pre ++ name s) e) pre = reported s e.
Proof.
  intros H. unfold rep, clean_dict_keys, reported. cbn [filter fst].
  pose proof (H "") as H0. assert (E : forall P, P ++ "" = P) by (clear; intros P; induction P; cbn; congruence). rewrite E in H0. unfold keep in H0. rewrite H0.
  assert (D : forall p x, drop (slen p) (p ++ x) = x) by (clear; intros p x; induction p; [now destruct x|exact IHp]).
  rewrite filter_all by (intros q; cbn [fst]; rewrite append_assoc; apply (H ("__" ++ fst q))).
  cbn [map fst snd]. rewrite D, map_map. f_equal. apply map_ext. intros q. cbn [fst snd]. rewrite append_assoc, D. reflexivity.
Qed.

Lemma params_mapper (graph : bool) h m : get_params (mapper graph h m) =
  (("steps", Steps) :: rep "memory" (m Memory) ++ rep "verbose" (m Verbose) ++
  (("pullback_cover", Node (Some "transformer_list")
        [("n_jobs", h_n_jobs h); ("transformer_weights", h_weights h); ("verbose", h_union_verbose h);
         ("clustering_preprocessing", m Preprocessing);
         ("map_and_cover", Node (Some "steps")
            [("memory", h_memory h); ("verbose", h_verbose h);
             ("scaler", m Scaler); ("filter_func", m FilterFunc); ("cover", m Cover)])]) ::
   ("pullback_cover__transformer_list", Steps) ::
   rep "pullback_cover__n_jobs" (h_n_jobs h) ++ rep "pullback_cover__transformer_weights" (h_weights h) ++
   rep "pullback_cover__verbose" (h_union_verbose h) ++ rep (clust_prepr_params_prefix ++ name Preprocessing) (m Preprocessing) ++
   (("pullback_cover__map_and_cover", Node (Some "steps")
            [("memory", h_memory h); ("verbose", h_verbose h);
             ("scaler", m Scaler); ("filter_func", m FilterFunc); ("cover", m Cover)]) ::
    ("pullback_cover__map_and_cover__steps", Steps) ::
    rep "pullback_cover__map_and_cover__memory" (h_memory h) ++ rep "pullback_cover__map_and_cover__verbose" (h_verbose h) ++
    rep (nodes_params_prefix ++ name Scaler) (m Scaler) ++ rep (nodes_params_prefix ++ name FilterFunc) (m FilterFunc) ++
    rep (nodes_params_prefix ++ name Cover) (m Cover))) ++
  (("clustering", Node None
        [("clusterer", m Clusterer); ("n_jobs", m NJobs); ("parallel_backend_prefer", m Backend)]) ::
   rep (clust_params_prefix ++ name Clusterer) (m Clusterer) ++ rep "clustering__n_jobs" (m NJobs) ++ rep (clust_params_prefix ++ name Backend) (m Backend)) ++
  (if graph then
    ("nerve", Node None
          [("min_intersection", m MinIntersection); ("store_edge_elements", m StoreEdges);
           ("contract_nodes", m ContractNodes)]) ::
    rep (nerve_params_prefix ++ name MinIntersection) (m MinIntersection) ++ rep (nerve_params_prefix ++ name StoreEdges) (m StoreEdges) ++
    rep (nerve_params_prefix ++ name ContractNodes) (m ContractNodes) else []))%list.
Proof.
  unfold mapper. set (e := Node (Some "steps") _). 
  change (get_params e) with (("steps", Steps) :: flat_map (fun p => rep (fst p) (snd p)) (match e with Node _ f => f | _ => [] end)).
  unfold e; clear e. cbv iota. rewrite flat_map_app. cbn [flat_map fst snd]. rewrite !rep_node. cbn [flat_map fst snd app]. rewrite !rep_node. cbn [flat_map fst snd app].
  destruct graph; cbn [flat_map fst snd app]; rewrite ?rep_node; cbn [flat_map fst snd app];
  repeat (first [rewrite <- app_assoc | rewrite app_nil_r | progress (cbn [app])]); reflexivity.
Qed.

Ltac clean1 :=
  first [ rewrite clean_cons_no by reflexivity
        | rewrite clean_rep_yes by (intros x; reflexivity) | rewrite clean_rep_no by (intros x; first [reflexivity | destruct x; reflexivity])
        | rewrite clean_app ].

Lemma clean_nodes graph h m : clean_dict_keys (get_params (mapper graph h m)) nodes_params_prefix =
  (reported Scaler (m Scaler) ++ reported FilterFunc (m FilterFunc) ++ reported Cover (m Cover))%list.
Proof. rewrite params_mapper. destruct graph; repeat clean1; cbn [app]; rewrite ?app_nil_r; reflexivity. Qed.
Lemma clean_prepr graph h m : clean_dict_keys (get_params (mapper graph h m)) clust_prepr_params_prefix =
  reported Preprocessing (m Preprocessing).
Proof. rewrite params_mapper. destruct graph; repeat clean1; cbn [app]; rewrite ?app_nil_r; reflexivity. Qed.
Lemma clean_clust graph h m : clean_dict_keys (get_params (mapper graph h m)) clust_params_prefix =
  (reported Clusterer (m Clusterer) ++ reported Backend (m Backend))%list.
Proof. rewrite params_mapper. destruct graph; repeat clean1; cbn [app]; rewrite ?app_nil_r; reflexivity. Qed.
Lemma clean_nerve (graph : bool) h m : clean_dict_keys (get_params (mapper graph h m)) nerve_params_prefix =
  if graph then (reported MinIntersection (m MinIntersection) ++ reported StoreEdges (m StoreEdges) ++ reported ContractNodes (m ContractNodes))%list else [].
Proof. rewrite params_mapper. destruct graph; repeat clean1; cbn [app]; rewrite ?app_nil_r; reflexivity. Qed.

Lemma merge_disjoint {A} (a b : list (string * A)) : (forall k, In k (map fst a) -> In k (map fst b) -> False) -> merge a b = (a ++ b)%list.
Proof.
  intros H. unfold merge. f_equal. induction a as [|[k v] t IH]; [reflexivity|]. cbn [filter fst].
  destruct (lookup k b) eqn:E.
  - exfalso. apply (H k); [now left|]. clear - E. induction b as [|[k' w] b IH]; [discriminate|]. cbn in *.
    destruct (String.eqb_spec k k') as [->|]; auto.
  - rewrite IH; [reflexivity|]. intros k' I. apply H. now right.
Qed.
Lemma reported_key s e k : In k (map fst (reported s e)) -> fst (partition k) = name s.
Proof.
  unfold reported. cbn [map fst]. rewrite map_map. intros [<-|I].
  - exact (f_equal fst (partition_keyword s None)).
  - apply in_map_iff in I. destruct I as [q [<- _]]. cbn [fst]. exact (f_equal fst (partition_keyword s (Some (fst q)))).
Qed.
Ltac keys := repeat match goal with
  | H : In _ (map fst (_ ++ _)%list) |- _ => rewrite map_app in H; apply in_app_or in H; destruct H as [H|H]
  | H : In ?k (map fst (reported _ _)) |- _ => apply reported_key in H
  | H : In ?k (map fst (_ :: _)) |- _ => destruct H as [H|H]; [first [discriminate H | subst k]|]
  | H : In _ (map fst []) |- _ => destruct H
  end; try (cbn in *; congruence).

(** C49: what get_mapper_params reports: memory, verbose, and every other Mapper-level parameter
    with all its own parameters, except n_jobs. *)
Theorem get_mapper_params_spec (graph : bool) h m :
  get_mapper_params true (mapper graph h m) =
  Ok ([("memory", m Memory); ("verbose", m Verbose)] ++
      flat_map (fun s => reported s (m s))
        ([Scaler; FilterFunc; Cover; Preprocessing; Clusterer; Backend] ++
         if graph then [MinIntersection; StoreEdges; ContractNodes] else []))%list.
Proof.
  unfold get_mapper_params. rewrite clean_nodes, clean_prepr, clean_clust, clean_nerve, params_mapper.
  assert (LM : forall Y, lookup "memory" (("steps", Steps) :: rep "memory" (m Memory) ++ Y)%list = Some (m Memory)) by reflexivity.
  assert (LV : forall Y, lookup "verbose" (("steps", Steps) :: rep "memory" (m Memory) ++ rep "verbose" (m Verbose) ++ Y)%list = Some (m Verbose)).
  { intros Y. unfold rep at 1. cbn [lookup app]. change (String.eqb "verbose" "steps") with false. change (String.eqb "verbose" "memory") with false. cbv iota.
    induction (get_params (m Memory)) as [|q X IH]; [reflexivity|exact IH]. }
  cbn [mapM global_pipeline_params bind]. rewrite LM, LV. cbn [bind].
  f_equal.
  rewrite (merge_disjoint [_; _]); [|intros k I J; keys].
  rewrite (merge_disjoint (_ ++ _)); [|intros k I J; keys].
  rewrite (merge_disjoint ((_ ++ _) ++ _)); [|intros k I J; keys].
  rewrite merge_disjoint; [|intros k I J; destruct graph; keys].
  destruct graph; cbn [flat_map app]; repeat (rewrite <- app_assoc; cbn [app]); rewrite ?app_nil_r; reflexivity.
Qed.

(** Changing n_jobs cannot be seen in get_mapper_params. *)
Theorem n_jobs_not_reported (graph : bool) h m v : exists l, get_mapper_params true (mapper graph h m) = Ok l /\
  get_mapper_params true (mapper graph h (fun s => match s with NJobs => v | _ => m s end)) = Ok l /\
  forall e, ~ In ("n_jobs", e) l.
Proof.
  rewrite !get_mapper_params_spec. eexists. split; [reflexivity|]. split; [destruct graph; reflexivity|].
  intros e I. apply (in_map fst) in I. cbn [fst] in I. 
  destruct graph; cbn [flat_map app] in I; rewrite ?app_nil_r in I; keys.
Qed.

(** With deep=False only memory and verbose are reported. *)
Theorem get_mapper_params_shallow (graph : bool) h m :
  get_mapper_params false (mapper graph h m) = Ok [("memory", m Memory); ("verbose", m Verbose)].
Proof. destruct graph; reflexivity. Qed.

(** After a successful set_params, get_mapper_params reports the new values. *)
Theorem set_then_get graph h m kw t' : NoDup (map fst kw) ->
  mapper_set_params (mapper graph h m) (map (fun p => (keyword_name (fst p), snd p)) kw) = Ok t' ->
  exists m', (forall s, updated s kw (m s) (m' s)) /\
  get_mapper_params true t' = Ok ([("memory", m' Memory); ("verbose", m' Verbose)] ++
      flat_map (fun s => reported s (m' s))
        ([Scaler; FilterFunc; Cover; Preprocessing; Clusterer; Backend] ++
         if graph then [MinIntersection; StoreEdges; ContractNodes] else []))%list.
Proof.
  intros N H. apply mapper_set_params_spec in H; [|exact N]. destruct H as [_ [m' [-> U]]]. exists m'. split; [exact U|].
  apply get_mapper_params_spec.
Qed.

(** ** Names that are not parameters *)
Lemma unknown_level attr fs key v e' : sk_set_params (Node attr fs) [(key, v)] = Ok e' -> NoDup (map fst fs) -> In (fst (partition key)) (map fst fs).
Proof. intros H N. apply sk_set_params_ok in H; [|exact N]. destruct H as [V _]. now apply (V key v (or_introl eq_refl)). Qed.

(** C49: a name which is neither a Mapper-level parameter, possibly followed by __ and something,
    nor a step or a parameter of a step is an error, even if it begins like a parameter. *)
Theorem unknown_name_error graph h m key v t' :
  ~ In (fst (partition key)) ["scaler"; "filter_func"; "cover"; "clustering_preprocessing"; "clusterer"; "n_jobs";
     "parallel_backend_prefer"; "min_intersection"; "store_edge_elements"; "contract_nodes"; "memory"; "verbose";
     "pullback_cover"; "clustering"; "nerve"; "transformer_weights"; "map_and_cover"] ->
  mapper_set_params (mapper graph h m) [(key, v)] <> Ok t'.
Proof.
  intros HK H. unfold mapper_set_params, subset_kwargs in H. cbn [filter fst] in H.
  apply bind_ok in H. destruct H as [[e1 r1] [H1 H]]. apply bind_ok in H. destruct H as [[e2 r2] [H2 H]].
  apply bind_ok in H. destruct H as [[e3 r3] [H3 H]]. apply bind_ok in H. destruct H as [[e4 r4] [H4 H]]. cbn [fst snd] in H.
  destruct (startswith key nodes_params).
  { unfold set_group in H1. apply bind_ok in H1. destruct H1 as [e [H1 _]].
    change (map (fun p : string * est => (nodes_params_prefix ++ fst p, snd p)) [(key, v)]) with (under "pullback_cover" (under "map_and_cover" [(key, v)])) in H1.
    unfold mapper in H1. rewrite level_under in H1; [|destruct graph; side|side|side|side]. destruct H1 as [fs' [-> F]]. destruct graph; cbn [app] in F; go_down F;
    match goal with P : sk_set_params (Node (Some "transformer_list") _) _ = _ |- _ => rewrite level_under in P; [|side|side|side|side]; destruct P as [fs1 [-> F]] end; go_down F;
    match goal with P : sk_set_params (Node (Some "steps") _) _ = _ |- _ => apply unknown_level in P; [|side]; apply HK; cbn in P |- *; tauto end. }
  injection H1 as <- <-. destruct (startswith key clust_prepr_params).
  { unfold set_group in H2. apply bind_ok in H2. destruct H2 as [e [H2 _]].
    change (map (fun p : string * est => (clust_prepr_params_prefix ++ fst p, snd p)) [(key, v)]) with (under "pullback_cover" [(key, v)]) in H2.
    unfold mapper in H2. rewrite level_under in H2; [|destruct graph; side|side|side|side]. destruct H2 as [fs' [-> F]]. destruct graph; cbn [app] in F; go_down F;
    match goal with P : sk_set_params (Node (Some "transformer_list") _) _ = _ |- _ => apply unknown_level in P; [|side]; apply HK; cbn in P |- *; tauto end. }
  injection H2 as <- <-. destruct (startswith key clust_params).
  { unfold set_group in H3. apply bind_ok in H3. destruct H3 as [e [H3 _]].
    change (map (fun p : string * est => (clust_params_prefix ++ fst p, snd p)) [(key, v)]) with (under "clustering" [(key, v)]) in H3.
    unfold mapper in H3. rewrite level_under in H3; [|destruct graph; side|side|side|side]. destruct H3 as [fs' [-> F]]. destruct graph; cbn [app] in F; go_down F;
    match goal with P : sk_set_params (Node None _) _ = _ |- _ => apply unknown_level in P; [|side]; apply HK; cbn in P |- *; tauto end. }
  injection H3 as <- <-. destruct (startswith key nerve_params).
  { unfold set_group in H4. apply bind_ok in H4. destruct H4 as [e [H4 _]].
    change (map (fun p : string * est => (nerve_params_prefix ++ fst p, snd p)) [(key, v)]) with (under "nerve" [(key, v)]) in H4.
    destruct graph.
    - unfold mapper in H4. rewrite level_under in H4; [|side|side|side|side]. destruct H4 as [fs' [-> F]]. cbn [app] in F; go_down F;
      match goal with P : sk_set_params (Node None _) _ = _ |- _ => apply unknown_level in P; [|side]; apply HK; cbn in P |- *; tauto end.
    - unfold mapper in H4. apply unknown_level in H4; [|side]. rewrite plain_nerve in H4. cbn in H4. intuition discriminate. }
  injection H4 as <- <-. unfold mapper in H. apply unknown_level in H; [|destruct graph; side].
  apply HK. destruct graph; cbn in H |- *; tauto.
Qed.

(** ** make_mapper_pipeline *)
(** C49: each argument becomes the parameter of that name: a given object itself (a callable
    filter wrapped), the documented default for None. *)
Theorem make_mapper_pipeline_spec is_transformer on_rows none_identity pca cubical_cover identity_checked dbscan none default_verbose
  scaler filter_func cover clustering_preprocessing clusterer n_jobs backend graph min_intersection store_edges contract memory verbose :
  make_mapper_pipeline is_transformer on_rows none_identity pca cubical_cover identity_checked dbscan none default_verbose
    scaler filter_func cover clustering_preprocessing clusterer n_jobs backend graph min_intersection store_edges contract memory verbose =
  mapper graph (Hidden none verbose none none default_verbose)
    (fun s => match s with
     | Scaler => match scaler with Some e => e | None => none_identity end
     | FilterFunc => match filter_func with Some e => if is_transformer e then e else on_rows e | None => pca end
     | Cover => match cover with Some e => e | None => cubical_cover end
     | Preprocessing => match clustering_preprocessing with Some e => e | None => identity_checked end
     | Clusterer => match clusterer with Some e => e | None => dbscan end
     | NJobs => n_jobs | Backend => backend | MinIntersection => min_intersection
     | StoreEdges => store_edges | ContractNodes => contract | Memory => memory | Verbose => verbose
     end).
Proof.
  unfold make_mapper_pipeline, mapper. destruct filter_func as [f|]; [|reflexivity]. destruct (is_transformer f); reflexivity.
Qed.

(** ** A concrete case: a cover with two parameters *)
Definition ex_m (s : slot) : est :=
  match s with Cover => Node None [("n_intervals", Leaf 10); ("overlap_frac", Leaf 20)] | Verbose => Leaf 0 | _ => Leaf 1 end.
Definition ex_h : hidden := Hidden (Leaf 5) (Leaf 5) (Leaf 5) (Leaf 5) (Leaf 5).
Example ex_set :
  mapper_set_params (mapper true ex_h ex_m)
    [("cover__n_intervals", Leaf 30); ("n_jobs", Leaf 4); ("memory", Leaf 7); ("clusterer", Leaf 9)] =
  Ok (mapper true ex_h (fun s => match s with
        | Cover => Node None [("n_intervals", Leaf 30); ("overlap_frac", Leaf 20)]
        | NJobs => Leaf 4 | Memory => Leaf 7 | Clusterer => Leaf 9 | s => ex_m s end)).
Proof. reflexivity. Qed.
Example ex_hyp : NoDup (map fst [((Cover, Some "n_intervals"), Leaf 30); ((NJobs, None), Leaf 4)]).
Proof. repeat constructor; cbn; intuition discriminate. Qed.
Example ex_both : mapper_set_params (mapper true ex_h ex_m)
    [("cover__n_intervals", Leaf 30); ("cover", Node None [("n_intervals", Leaf 11)])] =
  Ok (mapper true ex_h (fun s => match s with Cover => Node None [("n_intervals", Leaf 30)] | s => ex_m s end)).
Proof. reflexivity. Qed.
Example ex_coverage : mapper_set_params (mapper true ex_h ex_m) [("coverage", Leaf 30)] = Err ValueError.
Proof. reflexivity. Qed.
Example ex_no_nerve : mapper_set_params (mapper false ex_h ex_m) [("contract_nodes", Leaf 30)] = Err ValueError.
Proof. reflexivity. Qed.
Example ex_get : get_mapper_params true (mapper false ex_h ex_m) =
  Ok [("memory", Leaf 1); ("verbose", Leaf 0); ("scaler", Leaf 1); ("filter_func", Leaf 1);
      ("cover", ex_m Cover); ("cover__n_intervals", Leaf 10); ("cover__overlap_frac", Leaf 20);
      ("clustering_preprocessing", Leaf 1); ("clusterer", Leaf 1); ("parallel_backend_prefer", Leaf 1)].
Proof. reflexivity. Qed.

Print Assumptions get_mapper_params_spec.
Print Assumptions n_jobs_not_reported.
Print Assumptions set_then_get.
Print Assumptions unknown_name_error.
Print Assumptions make_mapper_pipeline_spec.
