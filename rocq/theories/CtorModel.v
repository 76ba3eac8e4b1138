(* The constructors of the estimators of giotto-tda: all the classes of gtda that
   derive from sklearn's BaseEstimator and define __init__, in the order of the
   files.  Each signature and each statement of the body is transcribed; a
   docstring or "pass" is no statement.
   Not modelled: Pipeline, MapperPipeline and ListFeatureUnion (they inherit their
   constructors from scikit-learn), Interval (see IntervalModel) and
   MapperInteractivePlotter, OutputWidgetHandler (not estimators). *)
From Coq Require Import List String ZArith QArith.
From Verif Require Import Np CtorTypes.
Import ListNotations.
Open Scope string_scope.
Open Scope list_scope.
Open Scope Z_scope.

(* curves/features.py lines 89-92, StandardFeatures.__init__ *)
Definition StandardFeatures : ctor := {|
  c_name := "StandardFeatures";
  c_params := [("function", Some (VStr "max"));
    ("function_params", Some (VNone));
    ("n_jobs", Some (VNone))];
  c_body := [Assign "function" (Arg "function");
    Assign "function_params" (Arg "function_params");
    Assign "n_jobs" (Arg "n_jobs")]
|}.

(* curves/preprocessing.py lines 47-49, Derivative.__init__ *)
Definition Derivative : ctor := {|
  c_name := "Derivative";
  c_params := [("order", Some (VInt 1));
    ("n_jobs", Some (VNone))];
  c_body := [Assign "order" (Arg "order");
    Assign "n_jobs" (Arg "n_jobs")]
|}.

(* diagrams/distance.py lines 137-142, PairwiseDistance.__init__ *)
Definition PairwiseDistance : ctor := {|
  c_name := "PairwiseDistance";
  c_params := [("metric", Some (VStr "landscape"));
    ("metric_params", Some (VNone));
    ("order", Some (VFloat (2 # 1)));
    ("n_jobs", Some (VNone))];
  c_body := [Assign "metric" (Arg "metric");
    Assign "metric_params" (Arg "metric_params");
    Assign "order" (Arg "order");
    Assign "n_jobs" (Arg "n_jobs")]
|}.

(* diagrams/features.py lines 90-93, PersistenceEntropy.__init__ *)
Definition PersistenceEntropy : ctor := {|
  c_name := "PersistenceEntropy";
  c_params := [("normalize", Some (VBool false));
    ("nan_fill_value", Some (VFloat ((-1) # 1)));
    ("n_jobs", Some (VNone))];
  c_body := [Assign "normalize" (Arg "normalize");
    Assign "nan_fill_value" (Arg "nan_fill_value");
    Assign "n_jobs" (Arg "n_jobs")]
|}.

(* diagrams/features.py lines 296-301, Amplitude.__init__ *)
Definition Amplitude : ctor := {|
  c_name := "Amplitude";
  c_params := [("metric", Some (VStr "landscape"));
    ("metric_params", Some (VNone));
    ("order", Some (VNone));
    ("n_jobs", Some (VNone))];
  c_body := [Assign "metric" (Arg "metric");
    Assign "metric_params" (Arg "metric_params");
    Assign "order" (Arg "order");
    Assign "n_jobs" (Arg "n_jobs")]
|}.

(* diagrams/features.py lines 434-435, NumberOfPoints.__init__ *)
Definition NumberOfPoints : ctor := {|
  c_name := "NumberOfPoints";
  c_params := [("n_jobs", Some (VNone))];
  c_body := [Assign "n_jobs" (Arg "n_jobs")]
|}.

(* diagrams/features.py lines 603-606, ComplexPolynomial.__init__ *)
Definition ComplexPolynomial : ctor := {|
  c_name := "ComplexPolynomial";
  c_params := [("n_coefficients", Some (VInt 10));
    ("polynomial_type", Some (VStr "R"));
    ("n_jobs", Some (VNone))];
  c_body := [Assign "n_coefficients" (Arg "n_coefficients");
    Assign "polynomial_type" (Arg "polynomial_type");
    Assign "n_jobs" (Arg "n_jobs")]
|}.

(* diagrams/preprocessing.py lines 34-35, ForgetDimension.__init__ *)
Definition ForgetDimension : ctor := {|
  c_name := "ForgetDimension";
  c_params := [];
  c_body := []
|}.

(* diagrams/preprocessing.py lines 201-206, Scaler.__init__ *)
Definition Scaler : ctor := {|
  c_name := "Scaler";
  c_params := [("metric", Some (VStr "bottleneck"));
    ("metric_params", Some (VNone));
    ("function", Some (VFun "numpy.max"));
    ("n_jobs", Some (VNone))];
  c_body := [Assign "metric" (Arg "metric");
    Assign "metric_params" (Arg "metric_params");
    Assign "function" (Arg "function");
    Assign "n_jobs" (Arg "n_jobs")]
|}.

(* diagrams/preprocessing.py lines 407-409, Filtering.__init__ *)
Definition Filtering : ctor := {|
  c_name := "Filtering";
  c_params := [("homology_dimensions", Some (VNone));
    ("epsilon", Some (VFloat (1 # 100)))];
  c_body := [Assign "homology_dimensions" (Arg "homology_dimensions");
    Assign "epsilon" (Arg "epsilon")]
|}.

(* diagrams/representations.py lines 80-82, BettiCurve.__init__ *)
Definition BettiCurve : ctor := {|
  c_name := "BettiCurve";
  c_params := [("n_bins", Some (VInt 100));
    ("n_jobs", Some (VNone))];
  c_body := [Assign "n_bins" (Arg "n_bins");
    Assign "n_jobs" (Arg "n_jobs")]
|}.

(* diagrams/representations.py lines 312-315, PersistenceLandscape.__init__ *)
Definition PersistenceLandscape : ctor := {|
  c_name := "PersistenceLandscape";
  c_params := [("n_layers", Some (VInt 1));
    ("n_bins", Some (VInt 100));
    ("n_jobs", Some (VNone))];
  c_body := [Assign "n_layers" (Arg "n_layers");
    Assign "n_bins" (Arg "n_bins");
    Assign "n_jobs" (Arg "n_jobs")]
|}.

(* diagrams/representations.py lines 582-585, HeatKernel.__init__ *)
Definition HeatKernel : ctor := {|
  c_name := "HeatKernel";
  c_params := [("sigma", Some (VFloat (1 # 10)));
    ("n_bins", Some (VInt 100));
    ("n_jobs", Some (VNone))];
  c_body := [Assign "sigma" (Arg "sigma");
    Assign "n_bins" (Arg "n_bins");
    Assign "n_jobs" (Arg "n_jobs")]
|}.

(* diagrams/representations.py lines 819-824, PersistenceImage.__init__ *)
Definition PersistenceImage : ctor := {|
  c_name := "PersistenceImage";
  c_params := [("sigma", Some (VFloat (1 # 10)));
    ("n_bins", Some (VInt 100));
    ("weight_function", Some (VNone));
    ("n_jobs", Some (VNone))];
  c_body := [Assign "sigma" (Arg "sigma");
    Assign "n_bins" (Arg "n_bins");
    Assign "weight_function" (Arg "weight_function");
    Assign "n_jobs" (Arg "n_jobs")]
|}.

(* diagrams/representations.py lines 1055-1058, Silhouette.__init__ *)
Definition Silhouette : ctor := {|
  c_name := "Silhouette";
  c_params := [("power", Some (VFloat (1 # 1)));
    ("n_bins", Some (VInt 100));
    ("n_jobs", Some (VNone))];
  c_body := [Assign "power" (Arg "power");
    Assign "n_bins" (Arg "n_bins");
    Assign "n_jobs" (Arg "n_jobs")]
|}.

(* graphs/geodesic_distance.py lines 88-93, GraphGeodesicDistance.__init__ *)
Definition GraphGeodesicDistance : ctor := {|
  c_name := "GraphGeodesicDistance";
  c_params := [("n_jobs", Some (VNone));
    ("directed", Some (VBool false));
    ("unweighted", Some (VBool false));
    ("method", Some (VStr "auto"))];
  c_body := [Assign "n_jobs" (Arg "n_jobs");
    Assign "directed" (Arg "directed");
    Assign "unweighted" (Arg "unweighted");
    Assign "method" (Arg "method")]
|}.

(* graphs/kneighbors.py lines 84-91, KNeighborsGraph.__init__ *)
Definition KNeighborsGraph : ctor := {|
  c_name := "KNeighborsGraph";
  c_params := [("n_neighbors", Some (VInt 4));
    ("mode", Some (VStr "connectivity"));
    ("metric", Some (VStr "euclidean"));
    ("p", Some (VInt 2));
    ("metric_params", Some (VNone));
    ("n_jobs", Some (VNone))];
  c_body := [Assign "n_neighbors" (Arg "n_neighbors");
    Assign "mode" (Arg "mode");
    Assign "metric" (Arg "metric");
    Assign "p" (Arg "p");
    Assign "metric_params" (Arg "metric_params");
    Assign "n_jobs" (Arg "n_jobs")]
|}.

(* graphs/transition.py lines 112-115, TransitionGraph.__init__ *)
Definition TransitionGraph : ctor := {|
  c_name := "TransitionGraph";
  c_params := [("func", Some (VFun "numpy.argsort"));
    ("func_params", Some (VNone));
    ("n_jobs", Some (VNone))];
  c_body := [Assign "func" (Arg "func");
    Assign "func_params" (Arg "func_params");
    Assign "n_jobs" (Arg "n_jobs")]
|}.

(* homology/cubical.py lines 111-119, CubicalPersistence.__init__ *)
Definition CubicalPersistence : ctor := {|
  c_name := "CubicalPersistence";
  c_params := [("homology_dimensions", Some (VTuple [(0 # 1); (1 # 1)]));
    ("coeff", Some (VInt 2));
    ("periodic_dimensions", Some (VNone));
    ("infinity_values", Some (VNone));
    ("reduced_homology", Some (VBool true));
    ("n_jobs", Some (VNone))];
  c_body := [Assign "homology_dimensions" (Arg "homology_dimensions");
    Assign "coeff" (Arg "coeff");
    Assign "periodic_dimensions" (Arg "periodic_dimensions");
    Assign "infinity_values" (Arg "infinity_values");
    Assign "reduced_homology" (Arg "reduced_homology");
    Assign "n_jobs" (Arg "n_jobs")]
|}.

(* homology/simplicial.py lines 162-174, VietorisRipsPersistence.__init__ *)
Definition VietorisRipsPersistence : ctor := {|
  c_name := "VietorisRipsPersistence";
  c_params := [("metric", Some (VStr "euclidean"));
    ("metric_params", Some (VDict));
    ("homology_dimensions", Some (VTuple [(0 # 1); (1 # 1)]));
    ("collapse_edges", Some (VBool false));
    ("coeff", Some (VInt 2));
    ("max_edge_length", Some (VInf));
    ("infinity_values", Some (VNone));
    ("reduced_homology", Some (VBool true));
    ("n_jobs", Some (VNone))];
  c_body := [Assign "metric" (Arg "metric");
    Assign "metric_params" (Arg "metric_params");
    Assign "homology_dimensions" (Arg "homology_dimensions");
    Assign "collapse_edges" (Arg "collapse_edges");
    Assign "coeff" (Arg "coeff");
    Assign "max_edge_length" (Arg "max_edge_length");
    Assign "infinity_values" (Arg "infinity_values");
    Assign "reduced_homology" (Arg "reduced_homology");
    Assign "n_jobs" (Arg "n_jobs")]
|}.

(* homology/simplicial.py lines 529-543, WeightedRipsPersistence.__init__ *)
Definition WeightedRipsPersistence : ctor := {|
  c_name := "WeightedRipsPersistence";
  c_params := [("metric", Some (VStr "euclidean"));
    ("metric_params", Some (VDict));
    ("homology_dimensions", Some (VTuple [(0 # 1); (1 # 1)]));
    ("weights", Some (VStr "DTM"));
    ("weight_params", Some (VDict));
    ("collapse_edges", Some (VBool false));
    ("coeff", Some (VInt 2));
    ("max_edge_weight", Some (VInf));
    ("infinity_values", Some (VNone));
    ("reduced_homology", Some (VBool true));
    ("n_jobs", Some (VNone))];
  c_body := [Assign "metric" (Arg "metric");
    Assign "metric_params" (Arg "metric_params");
    Assign "homology_dimensions" (Arg "homology_dimensions");
    Assign "weights" (Arg "weights");
    Assign "weight_params" (Arg "weight_params");
    Assign "collapse_edges" (Arg "collapse_edges");
    Assign "coeff" (Arg "coeff");
    Assign "max_edge_weight" (Arg "max_edge_weight");
    Assign "infinity_values" (Arg "infinity_values");
    Assign "reduced_homology" (Arg "reduced_homology");
    Assign "n_jobs" (Arg "n_jobs")]
|}.

(* homology/simplicial.py lines 843-853, SparseRipsPersistence.__init__ *)
Definition SparseRipsPersistence : ctor := {|
  c_name := "SparseRipsPersistence";
  c_params := [("metric", Some (VStr "euclidean"));
    ("homology_dimensions", Some (VTuple [(0 # 1); (1 # 1)]));
    ("coeff", Some (VInt 2));
    ("epsilon", Some (VFloat (1 # 10)));
    ("max_edge_length", Some (VInf));
    ("infinity_values", Some (VNone));
    ("reduced_homology", Some (VBool true));
    ("n_jobs", Some (VNone))];
  c_body := [Assign "metric" (Arg "metric");
    Assign "homology_dimensions" (Arg "homology_dimensions");
    Assign "coeff" (Arg "coeff");
    Assign "epsilon" (Arg "epsilon");
    Assign "max_edge_length" (Arg "max_edge_length");
    Assign "infinity_values" (Arg "infinity_values");
    Assign "reduced_homology" (Arg "reduced_homology");
    Assign "n_jobs" (Arg "n_jobs")]
|}.

(* homology/simplicial.py lines 1098-1106, WeakAlphaPersistence.__init__ *)
Definition WeakAlphaPersistence : ctor := {|
  c_name := "WeakAlphaPersistence";
  c_params := [("homology_dimensions", Some (VTuple [(0 # 1); (1 # 1)]));
    ("coeff", Some (VInt 2));
    ("max_edge_length", Some (VInf));
    ("infinity_values", Some (VNone));
    ("reduced_homology", Some (VBool true));
    ("n_jobs", Some (VNone))];
  c_body := [Assign "homology_dimensions" (Arg "homology_dimensions");
    Assign "coeff" (Arg "coeff");
    Assign "max_edge_length" (Arg "max_edge_length");
    Assign "infinity_values" (Arg "infinity_values");
    Assign "reduced_homology" (Arg "reduced_homology");
    Assign "n_jobs" (Arg "n_jobs")]
|}.

(* homology/simplicial.py lines 1338-1346, EuclideanCechPersistence.__init__ *)
Definition EuclideanCechPersistence : ctor := {|
  c_name := "EuclideanCechPersistence";
  c_params := [("homology_dimensions", Some (VTuple [(0 # 1); (1 # 1)]));
    ("coeff", Some (VInt 2));
    ("max_edge_length", Some (VInf));
    ("infinity_values", Some (VNone));
    ("reduced_homology", Some (VBool true));
    ("n_jobs", Some (VNone))];
  c_body := [Assign "homology_dimensions" (Arg "homology_dimensions");
    Assign "coeff" (Arg "coeff");
    Assign "max_edge_length" (Arg "max_edge_length");
    Assign "infinity_values" (Arg "infinity_values");
    Assign "reduced_homology" (Arg "reduced_homology");
    Assign "n_jobs" (Arg "n_jobs")]
|}.

(* homology/simplicial.py lines 1597-1609, FlagserPersistence.__init__ *)
Definition FlagserPersistence : ctor := {|
  c_name := "FlagserPersistence";
  c_params := [("homology_dimensions", Some (VTuple [(0 # 1); (1 # 1)]));
    ("directed", Some (VBool true));
    ("filtration", Some (VStr "max"));
    ("coeff", Some (VInt 2));
    ("max_edge_weight", Some (VInf));
    ("infinity_values", Some (VNone));
    ("reduced_homology", Some (VBool true));
    ("max_entries", Some (VInt (-1)));
    ("n_jobs", Some (VNone))];
  c_body := [Assign "homology_dimensions" (Arg "homology_dimensions");
    Assign "directed" (Arg "directed");
    Assign "filtration" (Arg "filtration");
    Assign "coeff" (Arg "coeff");
    Assign "max_edge_weight" (Arg "max_edge_weight");
    Assign "infinity_values" (Arg "infinity_values");
    Assign "reduced_homology" (Arg "reduced_homology");
    Assign "max_entries" (Arg "max_entries");
    Assign "n_jobs" (Arg "n_jobs")]
|}.

(* images/filtrations.py lines 84-86, HeightFiltration.__init__ *)
Definition HeightFiltration : ctor := {|
  c_name := "HeightFiltration";
  c_params := [("direction", Some (VNone));
    ("n_jobs", Some (VNone))];
  c_body := [Assign "direction" (Arg "direction");
    Assign "n_jobs" (Arg "n_jobs")]
|}.

(* images/filtrations.py lines 313-319, RadialFiltration.__init__ *)
Definition RadialFiltration : ctor := {|
  c_name := "RadialFiltration";
  c_params := [("center", Some (VNone));
    ("radius", Some (VInf));
    ("metric", Some (VStr "euclidean"));
    ("metric_params", Some (VDict));
    ("n_jobs", Some (VNone))];
  c_body := [Assign "center" (Arg "center");
    Assign "radius" (Arg "radius");
    Assign "metric" (Arg "metric");
    Assign "metric_params" (Arg "metric_params");
    Assign "n_jobs" (Arg "n_jobs")]
|}.

(* images/filtrations.py lines 526-528, DilationFiltration.__init__ *)
Definition DilationFiltration : ctor := {|
  c_name := "DilationFiltration";
  c_params := [("n_iterations", Some (VNone));
    ("n_jobs", Some (VNone))];
  c_body := [Assign "n_iterations" (Arg "n_iterations");
    Assign "n_jobs" (Arg "n_jobs")]
|}.

(* images/filtrations.py lines 720-722, ErosionFiltration.__init__ *)
Definition ErosionFiltration : ctor := {|
  c_name := "ErosionFiltration";
  c_params := [("n_iterations", Some (VNone));
    ("n_jobs", Some (VNone))];
  c_body := [Assign "n_iterations" (Arg "n_iterations");
    Assign "n_jobs" (Arg "n_jobs")]
|}.

(* images/filtrations.py lines 915-917, SignedDistanceFiltration.__init__ *)
Definition SignedDistanceFiltration : ctor := {|
  c_name := "SignedDistanceFiltration";
  c_params := [("n_iterations", Some (VNone));
    ("n_jobs", Some (VNone))];
  c_body := [Assign "n_iterations" (Arg "n_iterations");
    Assign "n_jobs" (Arg "n_jobs")]
|}.

(* images/filtrations.py lines 1116-1121, DensityFiltration.__init__ *)
Definition DensityFiltration : ctor := {|
  c_name := "DensityFiltration";
  c_params := [("radius", Some (VInt 3));
    ("metric", Some (VStr "euclidean"));
    ("metric_params", Some (VDict));
    ("n_jobs", Some (VNone))];
  c_body := [Assign "radius" (Arg "radius");
    Assign "metric" (Arg "metric");
    Assign "metric_params" (Arg "metric_params");
    Assign "n_jobs" (Arg "n_jobs")]
|}.

(* images/preprocessing.py lines 62-64, Binarizer.__init__ *)
Definition Binarizer : ctor := {|
  c_name := "Binarizer";
  c_params := [("threshold", Some (VFloat (1 # 2)));
    ("n_jobs", Some (VNone))];
  c_body := [Assign "threshold" (Arg "threshold");
    Assign "n_jobs" (Arg "n_jobs")]
|}.

(* images/preprocessing.py lines 229-231, Inverter.__init__ *)
Definition Inverter : ctor := {|
  c_name := "Inverter";
  c_params := [("max_value", Some (VNone));
    ("n_jobs", Some (VNone))];
  c_body := [Assign "max_value" (Arg "max_value");
    Assign "n_jobs" (Arg "n_jobs")]
|}.

(* images/preprocessing.py lines 398-401, Padder.__init__ *)
Definition Padder : ctor := {|
  c_name := "Padder";
  c_params := [("padding", Some (VNone));
    ("value", Some (VBool false));
    ("n_jobs", Some (VNone))];
  c_body := [Assign "padding" (Arg "padding");
    Assign "value" (Arg "value");
    Assign "n_jobs" (Arg "n_jobs")]
|}.

(* images/preprocessing.py lines 563-564, ImageToPointCloud.__init__ *)
Definition ImageToPointCloud : ctor := {|
  c_name := "ImageToPointCloud";
  c_params := [("n_jobs", Some (VNone))];
  c_body := [Assign "n_jobs" (Arg "n_jobs")]
|}.

(* local_homology/simplicial.py lines 30-52, LocalVietorisRipsBase.__init__ *)
Definition init_LocalVietorisRipsBase : init0 := {|
  i_params := [("metric", Some (VStr "euclidean"));
    ("homology_dimensions", Some (VTuple [(1 # 1); (2 # 1)]));
    ("neighborhood_params", Some (VTuple [(1 # 1); (2 # 1)]));
    ("collapse_edges", Some (VBool false));
    ("n_jobs", Some (VNone))];
  i_body := [("metric", (Arg "metric"));
    ("homology_dimensions", (Arg "homology_dimensions"));
    ("neighborhood_params", (Arg "neighborhood_params"));
    ("collapse_edges", (Arg "collapse_edges"));
    ("n_jobs", (Arg "n_jobs"))]
|}.

(* local_homology/simplicial.py lines 265-272, KNeighborsLocalVietorisRips.__init__ *)
Definition KNeighborsLocalVietorisRips : ctor := {|
  c_name := "KNeighborsLocalVietorisRips";
  c_params := [("metric", Some (VStr "euclidean"));
    ("homology_dimensions", Some (VTuple [(1 # 1); (2 # 1)]));
    ("n_neighbors", Some (VTuple [(1 # 1); (2 # 1)]));
    ("collapse_edges", Some (VBool false));
    ("n_jobs", Some (VNone))];
  c_body := [Assign "n_neighbors" (Arg "n_neighbors");
    SuperInit init_LocalVietorisRipsBase
        [("metric", Arg "metric"); ("homology_dimensions", Arg "homology_dimensions"); ("neighborhood_params", Self "n_neighbors"); ("collapse_edges", Arg "collapse_edges"); ("n_jobs", Arg "n_jobs")]]
|}.

(* local_homology/simplicial.py lines 402-409, RadiusLocalVietorisRips.__init__ *)
Definition RadiusLocalVietorisRips : ctor := {|
  c_name := "RadiusLocalVietorisRips";
  c_params := [("metric", Some (VStr "euclidean"));
    ("homology_dimensions", Some (VTuple [(1 # 1); (2 # 1)]));
    ("radii", Some (VTuple [(1 # 1); (2 # 1)]));
    ("collapse_edges", Some (VBool false));
    ("n_jobs", Some (VNone))];
  c_body := [Assign "radii" (Arg "radii");
    SuperInit init_LocalVietorisRipsBase
        [("metric", Arg "metric"); ("homology_dimensions", Arg "homology_dimensions"); ("neighborhood_params", Self "radii"); ("collapse_edges", Arg "collapse_edges"); ("n_jobs", Arg "n_jobs")]]
|}.

(* mapper/cluster.py lines 79-82, ParallelClustering.__init__ *)
Definition ParallelClustering : ctor := {|
  c_name := "ParallelClustering";
  c_params := [("clusterer", None);
    ("n_jobs", Some (VNone));
    ("parallel_backend_prefer", Some (VNone))];
  c_body := [Assign "clusterer" (Arg "clusterer");
    Assign "n_jobs" (Arg "n_jobs");
    Assign "parallel_backend_prefer" (Arg "parallel_backend_prefer")]
|}.

(* mapper/cluster.py lines 410-416, FirstSimpleGap.__init__ *)
Definition FirstSimpleGap : ctor := {|
  c_name := "FirstSimpleGap";
  c_params := [("linkage", Some (VStr "single"));
    ("affinity", Some (VStr "euclidean"));
    ("relative_gap_size", Some (VFloat (3 # 10)));
    ("max_fraction", Some (VFloat (1 # 1)));
    ("memory", Some (VNone))];
  c_body := [Assign "linkage" (Arg "linkage");
    Assign "affinity" (Arg "affinity");
    Assign "relative_gap_size" (Arg "relative_gap_size");
    Assign "max_fraction" (Arg "max_fraction");
    Assign "memory" (Arg "memory")]
|}.

(* mapper/cluster.py lines 562-570, FirstHistogramGap.__init__ *)
Definition FirstHistogramGap : ctor := {|
  c_name := "FirstHistogramGap";
  c_params := [("linkage", Some (VStr "single"));
    ("affinity", Some (VStr "euclidean"));
    ("freq_threshold", Some (VInt 0));
    ("max_fraction", Some (VFloat (1 # 1)));
    ("n_bins_start", Some (VInt 5));
    ("memory", Some (VNone))];
  c_body := [Assign "linkage" (Arg "linkage");
    Assign "affinity" (Arg "affinity");
    Assign "freq_threshold" (Arg "freq_threshold");
    Assign "max_fraction" (Arg "max_fraction");
    Assign "n_bins_start" (Arg "n_bins_start");
    Assign "memory" (Arg "memory")]
|}.

(* mapper/cover.py lines 93-96, OneDimensionalCover.__init__ *)
Definition OneDimensionalCover : ctor := {|
  c_name := "OneDimensionalCover";
  c_params := [("kind", Some (VStr "uniform"));
    ("n_intervals", Some (VInt 10));
    ("overlap_frac", Some (VFloat (1 # 10)))];
  c_body := [Assign "kind" (Arg "kind");
    Assign "n_intervals" (Arg "n_intervals");
    Assign "overlap_frac" (Arg "overlap_frac")]
|}.

(* mapper/cover.py lines 385-388, CubicalCover.__init__ *)
Definition CubicalCover : ctor := {|
  c_name := "CubicalCover";
  c_params := [("kind", Some (VStr "uniform"));
    ("n_intervals", Some (VInt 10));
    ("overlap_frac", Some (VFloat (1 # 10)))];
  c_body := [Assign "kind" (Arg "kind");
    Assign "n_intervals" (Arg "n_intervals");
    Assign "overlap_frac" (Arg "overlap_frac")]
|}.

(* mapper/filter.py lines 41-44, Eccentricity.__init__ *)
Definition Eccentricity : ctor := {|
  c_name := "Eccentricity";
  c_params := [("exponent", Some (VInt 2));
    ("metric", Some (VStr "euclidean"));
    ("metric_params", Some (VDict))];
  c_body := [Assign "exponent" (Arg "exponent");
    Assign "metric" (Arg "metric");
    Assign "metric_params" (Arg "metric_params")]
|}.

(* mapper/filter.py lines 117-118, Entropy.__init__ *)
Definition Entropy : ctor := {|
  c_name := "Entropy";
  c_params := [];
  c_body := []
|}.

(* mapper/filter.py lines 193-194, Projection.__init__ *)
Definition Projection : ctor := {|
  c_name := "Projection";
  c_params := [("columns", Some (VInt 0))];
  c_body := [Assign "columns" (Arg "columns")]
|}.

(* mapper/nerve.py lines 64-68, Nerve.__init__ *)
Definition Nerve : ctor := {|
  c_name := "Nerve";
  c_params := [("min_intersection", Some (VInt 1));
    ("store_edge_elements", Some (VBool false));
    ("contract_nodes", Some (VBool false))];
  c_body := [Assign "min_intersection" (Arg "min_intersection");
    Assign "store_edge_elements" (Arg "store_edge_elements");
    Assign "contract_nodes" (Arg "contract_nodes")]
|}.

(* metaestimators/collection_transformer.py lines 89-94, CollectionTransformer.__init__ *)
Definition CollectionTransformer : ctor := {|
  c_name := "CollectionTransformer";
  c_params := [("transformer", None);
    ("n_jobs", Some (VNone));
    ("parallel_backend_prefer", Some (VNone));
    ("parallel_backend_require", Some (VNone))];
  c_body := [Assign "transformer" (Arg "transformer");
    Assign "n_jobs" (Arg "n_jobs");
    Assign "parallel_backend_prefer" (Arg "parallel_backend_prefer");
    Assign "parallel_backend_require" (Arg "parallel_backend_require")]
|}.

(* point_clouds/rescaling.py lines 101-106, ConsistentRescaling.__init__ *)
Definition ConsistentRescaling : ctor := {|
  c_name := "ConsistentRescaling";
  c_params := [("metric", Some (VStr "euclidean"));
    ("metric_params", Some (VNone));
    ("neighbor_rank", Some (VInt 1));
    ("n_jobs", Some (VNone))];
  c_body := [Assign "metric" (Arg "metric");
    Assign "metric_params" (Arg "metric_params");
    Assign "neighbor_rank" (Arg "neighbor_rank");
    Assign "n_jobs" (Arg "n_jobs")]
|}.

(* point_clouds/rescaling.py lines 301-306, ConsecutiveRescaling.__init__ *)
Definition ConsecutiveRescaling : ctor := {|
  c_name := "ConsecutiveRescaling";
  c_params := [("metric", Some (VStr "euclidean"));
    ("metric_params", Some (VNone));
    ("factor", Some (VFloat (0 # 1)));
    ("n_jobs", Some (VNone))];
  c_body := [Assign "metric" (Arg "metric");
    Assign "metric_params" (Arg "metric_params");
    Assign "factor" (Arg "factor");
    Assign "n_jobs" (Arg "n_jobs")]
|}.

(* time_series/embedding.py lines 179-181, SlidingWindow.__init__ *)
Definition SlidingWindow : ctor := {|
  c_name := "SlidingWindow";
  c_params := [("size", Some (VInt 10));
    ("stride", Some (VInt 1))];
  c_body := [Assign "size" (Arg "size");
    Assign "stride" (Arg "stride")]
|}.

(* time_series/embedding.py lines 411-417, SingleTakensEmbedding.__init__ *)
Definition SingleTakensEmbedding : ctor := {|
  c_name := "SingleTakensEmbedding";
  c_params := [("parameters_type", Some (VStr "search"));
    ("time_delay", Some (VInt 1));
    ("dimension", Some (VInt 5));
    ("stride", Some (VInt 1));
    ("n_jobs", Some (VNone))];
  c_body := [Assign "parameters_type" (Arg "parameters_type");
    Assign "time_delay" (Arg "time_delay");
    Assign "dimension" (Arg "dimension");
    Assign "stride" (Arg "stride");
    Assign "n_jobs" (Arg "n_jobs")]
|}.

(* time_series/embedding.py lines 635-641, TakensEmbedding.__init__ *)
Definition TakensEmbedding : ctor := {|
  c_name := "TakensEmbedding";
  c_params := [("time_delay", Some (VInt 1));
    ("dimension", Some (VInt 2));
    ("stride", Some (VInt 1));
    ("flatten", Some (VBool true));
    ("ensure_last_value", Some (VBool true))];
  c_body := [Assign "time_delay" (Arg "time_delay");
    Assign "dimension" (Arg "dimension");
    Assign "stride" (Arg "stride");
    Assign "flatten" (Arg "flatten");
    Assign "ensure_last_value" (Arg "ensure_last_value")]
|}.

(* time_series/features.py lines 44-45, PermutationEntropy.__init__ *)
Definition PermutationEntropy : ctor := {|
  c_name := "PermutationEntropy";
  c_params := [("n_jobs", Some (VNone))];
  c_body := [Assign "n_jobs" (Arg "n_jobs")]
|}.

(* time_series/multivariate.py lines 50-52, PearsonDissimilarity.__init__ *)
Definition PearsonDissimilarity : ctor := {|
  c_name := "PearsonDissimilarity";
  c_params := [("absolute_value", Some (VBool false));
    ("n_jobs", Some (VNone))];
  c_body := [Assign "absolute_value" (Arg "absolute_value");
    Assign "n_jobs" (Arg "n_jobs")]
|}.

(* time_series/preprocessing.py lines 45-46, Resampler.__init__ *)
Definition Resampler : ctor := {|
  c_name := "Resampler";
  c_params := [("period", Some (VInt 2))];
  c_body := [Assign "period" (Arg "period")]
|}.

(* time_series/preprocessing.py lines 167-168, Stationarizer.__init__ *)
Definition Stationarizer : ctor := {|
  c_name := "Stationarizer";
  c_params := [("operation", Some (VStr "return"))];
  c_body := [Assign "operation" (Arg "operation")]
|}.

(* time_series/target.py lines 80-86, Labeller.__init__ *)
Definition Labeller : ctor := {|
  c_name := "Labeller";
  c_params := [("size", Some (VInt 10));
    ("func", Some (VFun "numpy.std"));
    ("func_params", Some (VNone));
    ("percentiles", Some (VNone));
    ("n_steps_future", Some (VInt 1))];
  c_body := [Assign "size" (Arg "size");
    Assign "func" (Arg "func");
    Assign "func_params" (Arg "func_params");
    Assign "percentiles" (Arg "percentiles");
    Assign "n_steps_future" (Arg "n_steps_future")]
|}.

Definition classes : list ctor := [
  StandardFeatures;
  Derivative;
  PairwiseDistance;
  PersistenceEntropy;
  Amplitude;
  NumberOfPoints;
  ComplexPolynomial;
  ForgetDimension;
  Scaler;
  Filtering;
  BettiCurve;
  PersistenceLandscape;
  HeatKernel;
  PersistenceImage;
  Silhouette;
  GraphGeodesicDistance;
  KNeighborsGraph;
  TransitionGraph;
  CubicalPersistence;
  VietorisRipsPersistence;
  WeightedRipsPersistence;
  SparseRipsPersistence;
  WeakAlphaPersistence;
  EuclideanCechPersistence;
  FlagserPersistence;
  HeightFiltration;
  RadialFiltration;
  DilationFiltration;
  ErosionFiltration;
  SignedDistanceFiltration;
  DensityFiltration;
  Binarizer;
  Inverter;
  Padder;
  ImageToPointCloud;
  KNeighborsLocalVietorisRips;
  RadiusLocalVietorisRips;
  ParallelClustering;
  FirstSimpleGap;
  FirstHistogramGap;
  OneDimensionalCover;
  CubicalCover;
  Eccentricity;
  Entropy;
  Projection;
  Nerve;
  CollectionTransformer;
  ConsistentRescaling;
  ConsecutiveRescaling;
  SlidingWindow;
  SingleTakensEmbedding;
  TakensEmbedding;
  PermutationEntropy;
  PearsonDissimilarity;
  Resampler;
  Stationarizer;
  Labeller].
