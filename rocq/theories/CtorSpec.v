(* What the documentation says about the parameters, and the vocabulary of the
   constructor theorems; nothing here refers to the model of the constructors. *)
From Coq Require Import List String ZArith QArith.
From Verif Require Import Np CtorTypes.
Import ListNotations.
Open Scope string_scope.
Open Scope list_scope.
Open Scope Z_scope.

(** The parameters of each class in the order of its documentation, each with the
    default announced there ([None]: no default). *)
Definition documented : list (string * list (string * option val)) := [
  (* curves/features.py, class docstring, lines 30-57 *)
  ("StandardFeatures", [("function", Some (VStr "max"));
     ("function_params", Some (VNone));
     ("n_jobs", Some (VNone))]);
  (* curves/preprocessing.py, class docstring, lines 29-32 *)
  ("Derivative", [("order", Some (VInt 1));
     ("n_jobs", Some (VNone))]);
  (* diagrams/distance.py, class docstring, lines 46-97 *)
  ("PairwiseDistance", [("metric", Some (VStr "landscape"));
     ("metric_params", Some (VNone));
     ("order", Some (VFloat (2 # 1)));
     ("n_jobs", Some (VNone))]);
  (* diagrams/features.py, class docstring, lines 45-56 *)
  ("PersistenceEntropy", [("normalize", Some (VBool false));
     ("nan_fill_value", Some (VFloat ((-1) # 1)));
     ("n_jobs", Some (VNone))]);
  (* diagrams/features.py, class docstring, lines 215-262 *)
  ("Amplitude", [("metric", Some (VStr "landscape"));
     ("metric_params", Some (VNone));
     ("order", Some (VNone));
     ("n_jobs", Some (VNone))]);
  (* diagrams/features.py, class docstring, lines 417-417 *)
  ("NumberOfPoints", [("n_jobs", Some (VNone))]);
  (* diagrams/features.py, class docstring, lines 556-568 *)
  ("ComplexPolynomial", [("n_coefficients", Some (VInt 10));
     ("polynomial_type", Some (VStr "R"));
     ("n_jobs", Some (VNone))]);
  ("ForgetDimension", []);
  (* diagrams/preprocessing.py, class docstring, lines 150-162 *)
  ("Scaler", [("metric", Some (VStr "bottleneck"));
     ("metric_params", Some (VNone));
     ("function", Some (VFun "numpy.max"));
     ("n_jobs", Some (VNone))]);
  (* diagrams/preprocessing.py, class docstring, lines 377-383 *)
  ("Filtering", [("homology_dimensions", Some (VNone));
     ("epsilon", Some (VFloat (1 # 100)))]);
  (* diagrams/representations.py, class docstring, lines 42-46 *)
  ("BettiCurve", [("n_bins", Some (VInt 100));
     ("n_jobs", Some (VNone))]);
  (* diagrams/representations.py, class docstring, lines 270-277 *)
  ("PersistenceLandscape", [("n_layers", Some (VInt 1));
     ("n_bins", Some (VInt 100));
     ("n_jobs", Some (VNone))]);
  (* diagrams/representations.py, class docstring, lines 531-538 *)
  ("HeatKernel", [("sigma", Some (VFloat (1 # 10)));
     ("n_bins", Some (VInt 100));
     ("n_jobs", Some (VNone))]);
  (* diagrams/representations.py, class docstring, lines 751-764 *)
  ("PersistenceImage", [("sigma", Some (VFloat (1 # 10)));
     ("n_bins", Some (VInt 100));
     ("weight_function", Some (VNone));
     ("n_jobs", Some (VNone))]);
  (* diagrams/representations.py, class docstring, lines 1004-1012 *)
  ("Silhouette", [("power", Some (VFloat (1 # 1)));
     ("n_bins", Some (VInt 100));
     ("n_jobs", Some (VNone))]);
  (* graphs/geodesic_distance.py, class docstring, lines 44-58 *)
  ("GraphGeodesicDistance", [("n_jobs", Some (VNone));
     ("directed", Some (VBool true));
     ("unweighted", Some (VBool false));
     ("method", Some (VStr "auto"))]);
  (* graphs/kneighbors.py, class docstring, lines 27-52 *)
  ("KNeighborsGraph", [("n_neighbors", Some (VInt 4));
     ("mode", Some (VStr "connectivity"));
     ("metric", Some (VStr "euclidean"));
     ("p", Some (VInt 2));
     ("metric_params", Some (VNone));
     ("n_jobs", Some (VNone))]);
  (* graphs/transition.py, class docstring, lines 43-55 *)
  ("TransitionGraph", [("func", Some (VFun "numpy.argsort"));
     ("func_params", Some (VNone));
     ("n_jobs", Some (VNone))]);
  (* homology/cubical.py, class docstring, lines 36-64 *)
  ("CubicalPersistence", [("homology_dimensions", Some (VTuple [(0 # 1); (1 # 1)]));
     ("coeff", Some (VInt 2));
     ("periodic_dimensions", Some (VNone));
     ("infinity_values", Some (VNone));
     ("reduced_homology", Some (VBool true));
     ("n_jobs", Some (VNone))]);
  (* homology/simplicial.py, class docstring, lines 61-110 *)
  ("VietorisRipsPersistence", [("metric", Some (VStr "euclidean"));
     ("metric_params", Some (VDict));
     ("homology_dimensions", Some (VTuple [(0 # 1); (1 # 1)]));
     ("collapse_edges", Some (VBool false));
     ("coeff", Some (VInt 2));
     ("max_edge_length", Some (VInf));
     ("infinity_values", Some (VNone));
     ("reduced_homology", Some (VBool true));
     ("n_jobs", Some (VNone))]);
  (* homology/simplicial.py, class docstring, lines 394-466 *)
  ("WeightedRipsPersistence", [("metric", Some (VStr "euclidean"));
     ("metric_params", Some (VDict));
     ("homology_dimensions", Some (VTuple [(0 # 1); (1 # 1)]));
     ("weights", Some (VStr "DTM"));
     ("weight_params", Some (VDict));
     ("collapse_edges", Some (VBool false));
     ("coeff", Some (VInt 2));
     ("max_edge_weight", Some (VInf));
     ("infinity_values", Some (VNone));
     ("reduced_homology", Some (VBool true));
     ("n_jobs", Some (VNone))]);
  (* homology/simplicial.py, class docstring, lines 755-799 *)
  ("SparseRipsPersistence", [("metric", Some (VStr "euclidean"));
     ("homology_dimensions", Some (VTuple [(0 # 1); (1 # 1)]));
     ("coeff", Some (VInt 2));
     ("epsilon", Some (VFloat (1 # 10)));
     ("max_edge_length", Some (VInf));
     ("infinity_values", Some (VNone));
     ("reduced_homology", Some (VBool true));
     ("n_jobs", Some (VNone))]);
  (* homology/simplicial.py, class docstring, lines 1031-1056 *)
  ("WeakAlphaPersistence", [("homology_dimensions", Some (VTuple [(0 # 1); (1 # 1)]));
     ("coeff", Some (VInt 2));
     ("max_edge_length", Some (VInf));
     ("infinity_values", Some (VNone));
     ("reduced_homology", Some (VBool true));
     ("n_jobs", Some (VNone))]);
  (* homology/simplicial.py, class docstring, lines 1273-1295 *)
  ("EuclideanCechPersistence", [("homology_dimensions", Some (VTuple [(0 # 1); (1 # 1)]));
     ("coeff", Some (VInt 2));
     ("max_edge_length", Some (VInf));
     ("infinity_values", Some (VNone));
     ("reduced_homology", Some (VBool true));
     ("n_jobs", Some (VNone))]);
  (* homology/simplicial.py, class docstring, lines 1498-1550 *)
  ("FlagserPersistence", [("homology_dimensions", Some (VTuple [(0 # 1); (1 # 1)]));
     ("directed", Some (VBool true));
     ("filtration", Some (VStr "max"));
     ("coeff", Some (VInt 2));
     ("max_edge_weight", Some (VInf));
     ("infinity_values", Some (VNone));
     ("reduced_homology", Some (VBool true));
     ("max_entries", Some (VInt (-1)));
     ("n_jobs", Some (VNone))]);
  (* images/filtrations.py, class docstring, lines 37-44 *)
  ("HeightFiltration", [("direction", Some (VNone));
     ("n_jobs", Some (VNone))]);
  (* images/filtrations.py, class docstring, lines 242-270 *)
  ("RadialFiltration", [("center", Some (VNone));
     ("radius", Some (VNone));
     ("metric", Some (VStr "euclidean"));
     ("metric_params", Some (VDict));
     ("n_jobs", Some (VNone))]);
  (* images/filtrations.py, class docstring, lines 484-488 *)
  ("DilationFiltration", [("n_iterations", Some (VNone));
     ("n_jobs", Some (VNone))]);
  (* images/filtrations.py, class docstring, lines 678-682 *)
  ("ErosionFiltration", [("n_iterations", Some (VNone));
     ("n_jobs", Some (VNone))]);
  (* images/filtrations.py, class docstring, lines 874-878 *)
  ("SignedDistanceFiltration", [("n_iterations", Some (VNone));
     ("n_jobs", Some (VNone))]);
  (* images/filtrations.py, class docstring, lines 1062-1081 *)
  ("DensityFiltration", [("radius", Some (VFloat (1 # 1)));
     ("metric", Some (VStr "euclidean"));
     ("metric_params", Some (VDict));
     ("n_jobs", Some (VNone))]);
  (* images/preprocessing.py, class docstring, lines 27-31 *)
  ("Binarizer", [("threshold", Some (VFloat (1 # 2)));
     ("n_jobs", Some (VNone))]);
  (* images/preprocessing.py, class docstring, lines 197-203 *)
  ("Inverter", [("max_value", Some (VNone));
     ("n_jobs", Some (VNone))]);
  (* images/preprocessing.py, class docstring, lines 360-370 *)
  ("Padder", [("padding", Some (VNone));
     ("value", Some (VInt 0));
     ("n_jobs", Some (VNone))]);
  (* images/preprocessing.py, class docstring, lines 539-539 *)
  ("ImageToPointCloud", [("n_jobs", Some (VNone))]);
  (* local_homology/simplicial.py, class docstring, lines 210-235 *)
  ("KNeighborsLocalVietorisRips", [("metric", Some (VStr "euclidean"));
     ("homology_dimensions", Some (VTuple [(1 # 1); (2 # 1)]));
     ("n_neighbors", Some (VTuple [(10 # 1); (50 # 1)]));
     ("collapse_edges", Some (VBool false));
     ("n_jobs", Some (VNone))]);
  (* local_homology/simplicial.py, class docstring, lines 349-374 *)
  ("RadiusLocalVietorisRips", [("metric", Some (VStr "euclidean"));
     ("homology_dimensions", Some (VTuple [(1 # 1); (2 # 1)]));
     ("radii", Some (VTuple [(0 # 1); (1 # 1)]));
     ("collapse_edges", Some (VBool false));
     ("n_jobs", Some (VNone))]);
  (* mapper/cluster.py, class docstring, lines 48-56 *)
  ("ParallelClustering", [("clusterer", None);
     ("n_jobs", Some (VNone));
     ("parallel_backend_prefer", Some (VNone))]);
  (* mapper/cluster.py, class docstring, lines 336-367 *)
  ("FirstSimpleGap", [("linkage", Some (VStr "single"));
     ("affinity", Some (VStr "euclidean"));
     ("relative_gap_size", Some (VFloat (3 # 10)));
     ("max_fraction", Some (VFloat (1 # 1)));
     ("memory", Some (VNone))]);
  (* mapper/cluster.py, class docstring, lines 476-511 *)
  ("FirstHistogramGap", [("linkage", Some (VStr "single"));
     ("affinity", Some (VStr "euclidean"));
     ("freq_threshold", Some (VInt 0));
     ("max_fraction", Some (VFloat (1 # 1)));
     ("n_bins_start", Some (VInt 5));
     ("memory", Some (VNone))]);
  (* mapper/cover.py, class docstring, lines 43-49 *)
  ("OneDimensionalCover", [("kind", Some (VStr "uniform"));
     ("n_intervals", Some (VInt 10));
     ("overlap_frac", Some (VFloat (1 # 10)))]);
  (* mapper/cover.py, class docstring, lines 362-369 *)
  ("CubicalCover", [("kind", Some (VStr "uniform"));
     ("n_intervals", Some (VInt 10));
     ("overlap_frac", Some (VFloat (1 # 10)))]);
  (* mapper/filter.py, class docstring, lines 26-36 *)
  ("Eccentricity", [("exponent", Some (VInt 2));
     ("metric", Some (VStr "euclidean"));
     ("metric_params", Some (VDict))]);
  ("Entropy", []);
  (* mapper/filter.py, class docstring, lines 188-188 *)
  ("Projection", [("columns", Some (VInt 0))]);
  (* mapper/nerve.py, class docstring, lines 40-51 *)
  ("Nerve", [("min_intersection", Some (VInt 1));
     ("store_edge_elements", Some (VBool false));
     ("contract_nodes", Some (VBool false))]);
  (* metaestimators/collection_transformer.py, class docstring, lines 33-49 *)
  ("CollectionTransformer", [("transformer", None);
     ("n_jobs", Some (VNone));
     ("parallel_backend_prefer", Some (VNone));
     ("parallel_backend_require", Some (VNone))]);
  (* point_clouds/rescaling.py, class docstring, lines 38-60 *)
  ("ConsistentRescaling", [("metric", Some (VStr "euclidean"));
     ("metric_params", Some (VNone));
     ("neighbor_rank", Some (VInt 1));
     ("n_jobs", Some (VNone))]);
  (* point_clouds/rescaling.py, class docstring, lines 246-268 *)
  ("ConsecutiveRescaling", [("metric", Some (VStr "euclidean"));
     ("metric_params", Some (VNone));
     ("factor", Some (VFloat (0 # 1)));
     ("n_jobs", Some (VNone))]);
  (* time_series/embedding.py, class docstring, lines 128-131 *)
  ("SlidingWindow", [("size", Some (VInt 10));
     ("stride", Some (VInt 1))]);
  (* time_series/embedding.py, class docstring, lines 303-326 *)
  ("SingleTakensEmbedding", [("parameters_type", Some (VStr "search"));
     ("time_delay", Some (VInt 1));
     ("dimension", Some (VInt 5));
     ("stride", Some (VInt 1));
     ("n_jobs", Some (VNone))]);
  (* time_series/embedding.py, class docstring, lines 527-545 *)
  ("TakensEmbedding", [("time_delay", Some (VInt 1));
     ("dimension", Some (VInt 2));
     ("stride", Some (VInt 1));
     ("flatten", Some (VBool true));
     ("ensure_last_value", Some (VBool true))]);
  (* time_series/features.py, class docstring, lines 25-25 *)
  ("PermutationEntropy", [("n_jobs", Some (VNone))]);
  (* time_series/multivariate.py, class docstring, lines 32-37 *)
  ("PearsonDissimilarity", [("absolute_value", Some (VBool false));
     ("n_jobs", Some (VNone))]);
  (* time_series/preprocessing.py, class docstring, lines 21-21 *)
  ("Resampler", [("period", Some (VInt 2))]);
  (* time_series/preprocessing.py, class docstring, lines 133-133 *)
  ("Stationarizer", [("operation", Some (VStr "return"))]);
  (* time_series/target.py, class docstring, lines 28-43 *)
  ("Labeller", [("size", Some (VInt 10));
     ("func", Some (VFun "numpy.std"));
     ("func_params", Some (VNone));
     ("percentiles", Some (VNone));
     ("n_steps_future", Some (VInt 1))])].

(** Equality as Python's == sees it: False == 0, 2 == 2.0. *)
Definition number (v : val) : option Q :=
  match v with
  | VBool b => Some (if b then 1 else 0)%Q
  | VInt n => Some (inject_Z n)
  | VFloat q => Some q
  | _ => None
  end.
Definition same_value (a b : val) : Prop :=
  match number a, number b with
  | Some x, Some y => (x == y)%Q
  | _, _ => a = b
  end.

(** The value a call gives to a parameter of a signature: the positional argument
    at its place, else the keyword argument, else the default. *)
Definition given (names : list (string * option val)) (pos : list val) (kw : dict)
    (p : string) (v : val) : Prop :=
  exists i d, nth_error names i = Some (p, d) /\
    (nth_error pos i = Some v \/
     nth_error pos i = None /\ In (p, v) kw \/
     nth_error pos i = None /\ ~ In p (map fst kw) /\ d = Some v).

(** A call that Python accepts: at most as many positional arguments as parameters,
    keywords different from one another and naming parameters that have no
    positional argument, a value for every parameter without default. *)
Definition acceptable (names : list (string * option val)) (pos : list val) (kw : dict) : Prop :=
  (List.length pos <= List.length names)%nat /\
  NoDup (map fst kw) /\
  (forall p, In p (map fst kw) ->
     exists i, nth_error (map fst names) i = Some p /\ (List.length pos <= i)%nat) /\
  (forall i p, nth_error names i = Some (p, None) ->
     (i < List.length pos)%nat \/ In p (map fst kw)).

(** The value of an attribute. *)
Definition has (o : dict) (a : string) (v : val) : Prop := lookup a o = Some v.

(** [o'] is [o] with the attributes of [kw] overwritten. *)
Definition overwritten (o kw o' : dict) : Prop :=
  (forall p v, In (p, v) kw -> has o' p v) /\
  (forall a, ~ In a (map fst kw) -> lookup a o' = lookup a o).

(** What happens to an estimator in its life: it is built, its parameters are set,
    and its methods write attributes that are not parameters. *)
Inductive life (build : list val -> dict -> res dict)
  (set : dict -> dict -> dict * res unit) (params : list string) : dict -> Prop :=
| born pos kw o : build pos kw = Ok o -> life build set params o
| tuned o kw : life build set params o -> life build set params (fst (set o kw))
| written o a v : life build set params o -> ~ In a params -> life build set params (put a v o)
| erased o a : life build set params o -> ~ In a params ->
    life build set params (filter (fun av => negb (fst av =? a)%string) o).
