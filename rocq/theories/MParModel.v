(** Model of the parameter interface of Mapper pipelines: gtda/mapper/pipeline.py, and the part of
    scikit-learn's get_params and set_params it relies on. *)
From Coq Require Import String Ascii.
From Verif Require Import Np.
Open Scope Z_scope.
Open Scope string_scope.
Notation slen := String.length.

(** An object: either opaque, or a scikit-learn estimator with its parameters.  A composition
    (Pipeline, FeatureUnion) also has its named steps among the fields and the name of the attribute
    holding their list; that list is [Steps]. *)
Inductive est :=
| Leaf (v : Z)
| Steps
| Node (attr : option string) (fields : list (string * est)).

(** ** Strings *)

(** key.partition('__'): the part before the first '__', and the part after it if there is one *)
Fixpoint partition (s : string) : string * option string :=
  match s with
  | EmptyString => (EmptyString, None)
  | String c r =>
      match r with
      | EmptyString => (s, None)
      | String c' r' =>
          if Ascii.eqb c "_" && Ascii.eqb c' "_" then (EmptyString, Some r')
          else let (a, b) := partition r in (String c a, b)
      end
  end.
(** s[n:] *)
Fixpoint drop (n : nat) (s : string) : string :=
  match n, s with O, _ => s | S n, String _ r => drop n r | S _, EmptyString => EmptyString end.
(** s.startswith(tuple) *)
Definition startswith (s : string) (l : list string) : bool := existsb (fun p => prefix p s) l.

(** ** Dictionaries with string keys *)
Fixpoint lookup {A} (k : string) (d : list (string * A)) : option A :=
  match d with [] => None | (k', v) :: t => if String.eqb k k' then Some v else lookup k t end.
Definition set_field {A} (k : string) (v : A) (d : list (string * A)) : list (string * A) :=
  map (fun p => if String.eqb k (fst p) then (fst p, v) else p) d.
(** {**a, **b} *)
Definition merge {A} (a b : list (string * A)) : list (string * A) :=
  filter (fun p => match lookup (fst p) b with Some _ => false | None => true end) a ++ b.
(** [d.pop(key) for key in keys] *)
Fixpoint pop_all {A} (keys : list string) (d : list (string * A)) : res (list (string * A)) :=
  match keys with
  | [] => Ok d
  | k :: t => match lookup k d with
              | None => Err KeyError
              | Some _ => pop_all t (filter (fun p => negb (String.eqb k (fst p))) d)
              end
  end.

(** ** scikit-learn (external): BaseEstimator.get_params(deep=True) and
    _BaseComposition._get_params *)
Fixpoint get_params (e : est) : list (string * est) :=
  match e with
  | Node attr fields =>
      (match attr with Some a => [(a, Steps)] | None => [] end) ++
      flat_map (fun p => (fst p, snd p) ::
                 map (fun q => (fst p ++ "__" ++ fst q, snd q)) (get_params (snd p))) fields
  | _ => []
  end.
(** deep=False: only the constructor's parameters; for a composition not the named steps
    ([own] says which fields are constructor parameters) *)
Definition get_params_shallow (own : list string) (e : est) : list (string * est) :=
  match e with
  | Node attr fields =>
      (match attr with Some a => [(a, Steps)] | None => [] end) ++
      filter (fun p => existsb (String.eqb (fst p)) own) fields
  | _ => []
  end.

(** scikit-learn (external): BaseEstimator.set_params and _BaseComposition._set_params.  The
    first loop checks the names and assigns the direct parameters and steps; then the nested
    parameters are set, grouped by name in order of appearance.  Assigning the whole list of steps
    is not modelled.  [n] bounds the depth of the nesting. *)
Fixpoint set_direct (attr : option string) (kw : list (string * est)) (fields : list (string * est))
  : res (list (string * est)) :=
  match kw with
  | [] => Ok fields
  | (key, v) :: t =>
      let (k, sub) := partition key in
      if match attr with Some a => String.eqb k a | None => false end then Err NotImplementedError else
      match lookup k fields with
      | None => Err ValueError
      | Some _ => set_direct attr t (match sub with None => set_field k v fields | Some _ => fields end)
      end
  end.
(** nested_params[k] *)
Definition nested (k : string) (kw : list (string * est)) : list (string * est) :=
  flat_map (fun p => match partition (fst p) with
                     | (k', Some sub) => if String.eqb k k' then [(sub, snd p)] else []
                     | (_, None) => []
                     end) kw.
(** nested_params.keys() *)
Fixpoint groups (seen : list string) (kw : list (string * est)) : list string :=
  match kw with
  | [] => []
  | (key, _) :: t =>
      match partition key with
      | (k, Some _) => if existsb (String.eqb k) seen then groups seen t else k :: groups (k :: seen) t
      | (_, None) => groups seen t
      end
  end.
(** the second loop; [set] is the set_params method of the children *)
Fixpoint set_groups (set : est -> list (string * est) -> res est) (kw : list (string * est))
  (ks : list string) (fields : list (string * est)) : res (list (string * est)) :=
  match ks with
  | [] => Ok fields
  | k :: t =>
      match lookup k fields with
      | None => Err ValueError
      | Some child => do child <- set child (nested k kw);
                      set_groups set kw t (set_field k child fields)
      end
  end.
Fixpoint set_params_n (n : nat) (e : est) (kw : list (string * est)) : res est :=
  match kw with
  | [] => Ok e
  | _ =>
      match e, n with
      | Node attr fields, S n =>
          do fields <- set_direct attr kw fields;
          do fields <- set_groups (set_params_n n) kw (groups [] kw) fields;
          Ok (Node attr fields)
      | _, _ => Err AttributeError
      end
  end.
Definition depth (kw : list (string * est)) : nat := S (list_max (map (fun p => slen (fst p)) kw)).
Definition sk_set_params (e : est) (kw : list (string * est)) : res est := set_params_n (depth kw) e kw.

(** ** gtda/mapper/pipeline.py *)

(** lines 11-20 *)
Definition global_pipeline_params := ["memory"; "verbose"].
Definition nodes_params := ["scaler"; "filter_func"; "cover"].
Definition clust_prepr_params := ["clustering_preprocessing"].
Definition clust_params := ["clusterer"; "n_jobs"; "parallel_backend_prefer"].
Definition nerve_params := ["min_intersection"; "store_edge_elements"; "contract_nodes"].
Definition clust_prepr_params_prefix := "pullback_cover__".
Definition nodes_params_prefix := "pullback_cover__map_and_cover__".
Definition clust_params_prefix := "clustering__".
Definition nerve_params_prefix := "nerve__".

(** lines 122-125 *)
Definition subset_kwargs (kw : list (string * est)) (param_strings : list string) :=
  filter (fun p => startswith (fst p) param_strings) kw.

(** lines 127-140 *)
Definition clean_dict_keys (kw : list (string * est)) (pre : string) : list (string * est) :=
  map (fun p => (drop (slen pre) (fst p), snd p))
    (filter (fun p => prefix pre (fst p)
       && negb (prefix (pre ++ "steps") (fst p)) && negb (prefix (pre ++ "memory") (fst p))
       && negb (prefix (pre ++ "verbose") (fst p)) && negb (prefix (pre ++ "transformer_list") (fst p))
       && negb (prefix (pre ++ "n_jobs") (fst p)) && negb (prefix (pre ++ "transformer_weights") (fst p))
       && negb (prefix (pre ++ "map_and_cover") (fst p))) kw).

(** lines 59-81; Pipeline's constructor parameters are steps, memory and verbose *)
Definition get_mapper_params (deep : bool) (e : est) : res (list (string * est)) :=
  let pipeline_params := if deep then get_params e else get_params_shallow ["memory"; "verbose"] e in
  do glob <- mapM (fun p => match lookup p pipeline_params with
                            | Some v => Ok (p, v) | None => Err KeyError end) global_pipeline_params;
  Ok (merge (merge (merge (merge glob
       (clean_dict_keys pipeline_params nodes_params_prefix))
       (clean_dict_keys pipeline_params clust_prepr_params_prefix))
       (clean_dict_keys pipeline_params clust_params_prefix))
       (clean_dict_keys pipeline_params nerve_params_prefix)).

(** lines 98-118: one of the four identical blocks *)
Definition set_group (pre : string) (group : list (string * est)) (st : est * list (string * est))
  : res (est * list (string * est)) :=
  let (e, kwargs) := st in
  match group with
  | [] => Ok st
  | _ => do e <- sk_set_params e (map (fun p => (pre ++ fst p, snd p)) group);
         do kwargs <- pop_all (map fst group) kwargs;
         Ok (e, kwargs)
  end.
(** lines 83-120 *)
Definition mapper_set_params (e : est) (kwargs : list (string * est)) : res est :=
  let mapper_nodes_kwargs := subset_kwargs kwargs nodes_params in
  let mapper_clust_prepr_kwargs := subset_kwargs kwargs clust_prepr_params in
  let mapper_clust_kwargs := subset_kwargs kwargs clust_params in
  let mapper_nerve_kwargs := subset_kwargs kwargs nerve_params in
  do st <- set_group nodes_params_prefix mapper_nodes_kwargs (e, kwargs);
  do st <- set_group clust_prepr_params_prefix mapper_clust_prepr_kwargs st;
  do st <- set_group clust_params_prefix mapper_clust_kwargs st;
  do st <- set_group nerve_params_prefix mapper_nerve_kwargs st;
  sk_set_params (fst st) (snd st).

(** lines 143-429 make_mapper_pipeline.  The default objects and the wrapper of a callable are
    external: identity(validate=False), PCA(n_components=2), CubicalCover(),
    identity(validate=True), DBSCAN().  [none] and [default_verbose] stand for None and for the
    remaining parameters of the inner Pipeline and of ListFeatureUnion left at their defaults. *)
Section Make.
Variable is_transformer : est -> bool.            (* hasattr(filter_func, "fit_transform") *)
Variable on_rows : est -> est.                    (* transformer_from_callable_on_rows *)
Variable none_identity pca cubical_cover identity_checked dbscan none default_verbose : est.
Definition make_mapper_pipeline (scaler filter_func cover clustering_preprocessing clusterer : option est)
  (n_jobs parallel_backend_prefer : est) (graph_step : bool)
  (min_intersection store_edge_elements contract_nodes memory verbose : est) : est :=
  let scaler_ := match scaler with None => none_identity | Some e => e end in
  let filter_func_ := match filter_func with
                      | None => pca
                      | Some e => if negb (is_transformer e) then on_rows e else e
                      end in
  let cover_ := match cover with None => cubical_cover | Some e => e end in
  let clustering_preprocessing_ := match clustering_preprocessing with
                                   | None => identity_checked | Some e => e end in
  let clusterer_ := match clusterer with None => dbscan | Some e => e end in
  let map_and_cover := Node (Some "steps")
    [("memory", none); ("verbose", verbose);
     ("scaler", scaler_); ("filter_func", filter_func_); ("cover", cover_)] in
  Node (Some "steps")
    ([("memory", memory); ("verbose", verbose);
      ("pullback_cover", Node (Some "transformer_list")
        [("n_jobs", none); ("transformer_weights", none); ("verbose", default_verbose);
         ("clustering_preprocessing", clustering_preprocessing_); ("map_and_cover", map_and_cover)]);
      ("clustering", Node None
        [("clusterer", clusterer_); ("n_jobs", n_jobs); ("parallel_backend_prefer", parallel_backend_prefer)])] ++
     (if graph_step then
       [("nerve", Node None
          [("min_intersection", min_intersection); ("store_edge_elements", store_edge_elements);
           ("contract_nodes", contract_nodes)])] else [])).
End Make.
