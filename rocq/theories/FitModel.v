(* The attribute life cycle of the estimators of giotto-tda: for each class, the
   statements of [fit] and of the methods that need a fitted object, with the
   hyperparameters, attributes and locals each of them reads, in the order of
   the source.

   Simplifications, common to all the classes:
   - expressions are names; a block of pure computation is one expression that
     reads everything the block reads;
   - [May]: the expression can raise on some input; [Tot]: it cannot, given the
     checks that precede it (constants, comparisons of a hyperparameter, len,
     copies and lookups of values already validated);
   - [if p is None: self.a = d else: self.a = p] is one conditional expression
     assigned once;
   - [self.d[k] = e] on a dictionary held by attribute [d] is an assignment of
     the updated dictionary to [d] (Python evaluates [e] first);
   - log, warnings and plots are left out; parallel loops are one expression
     (the schedule does not matter, see C30). *)
From Coq Require Import List String.
From Verif Require Import Np FitTypes.
Import ListNotations.
Open Scope string_scope.
Open Scope list_scope.
Open Scope py_scope.

Definition X := Loc "X".

(* X = check_...(X): validation of the input, possibly raising *)
Definition chk (n : string) : stmt := Let "X" (May n [X]).
(* check_...(X) whose result is not used *)
Definition chk_ (n : string) : stmt := Let "_" (May n [X]).
(* validate_params(self.get_params(), self._hyperparameters, ...) *)
Definition validate (ps : list string) : stmt := Let "_" (May "validate_params" (map Par ps)).
(* if e: raise x *)
Definition guard (e : exp) (x : exn) : stmt := If e (Raise x) Skip.

(* --- curves ------------------------------------------------------------- *)

(* curves/features.py StandardFeatures.fit 147-208, transform 230-243 *)
Definition StandardFeatures : cls := {|
  c_name := "StandardFeatures";
  c_fit :=
    chk_ "check_array" ;;
    guard (Tot "X.ndim != 3" [X]) ValueError ;;
    Let "_" (May "_validate_params" [Par "function"; Par "function_params"]) ;;
    SetA "n_channels_" (Tot "X.shape[1]" [X]) ;;
    If (Tot "isinstance(function, str)" [Par "function"])
       (SetA "effective_function_" (May "recipes[function]" [Par "function"]) ;;
        If (Tot "is None" [Par "function_params"])
           (SetA "effective_function_params_" (Tot "{}" []))
           (Let "_" (May "validate_params" [Par "function_params"; Par "function"]) ;;
            SetA "effective_function_params_" (Tot "copy" [Par "function_params"])))
       (If (Tot "isinstance(function, FunctionType)" [Par "function"])
           (SetA "effective_function_" (Tot "tuple([v] * n)" [Par "function"; Att "n_channels_"]) ;;
            If (Tot "is None" [Par "function_params"])
               (SetA "effective_function_params_" (Tot "tuple([{}] * n)" [Att "n_channels_"]))
               (SetA "effective_function_params_" (May "tuple([v.copy()] * n)" [Par "function_params"; Att "n_channels_"])))
           (Let "n_functions" (Tot "len" [Par "function"]) ;;
            guard (Tot "len != n" [Par "function"; Att "n_channels_"]) ValueError ;;
            If (Tot "is None" [Par "function_params"])
               (SetA "_effective_function_params" (Tot "[{}] * n" [Att "n_channels_"]))
               (SetA "_effective_function_params" (Tot "id" [Par "function_params"]) ;;
                Let "n_function_params" (Tot "len" [Att "_effective_function_params"]) ;;
                guard (Tot "len != n" [Att "_effective_function_params"; Att "n_channels_"]) ValueError) ;;
            SetA "effective_function_" (Tot "[]" []) ;;
            SetA "effective_function_params_" (Tot "[]" []) ;;
            For "fp" (Tot "zip" [Par "function"; Att "_effective_function_params"])
                (If (Tot "isinstance(f, str)" [Loc "fp"])
                    (Let "_" (May "validate_params(p, available[f])" [Loc "fp"]) ;;
                     SetA "effective_function_" (May "append recipes[f]" [Att "effective_function_"; Loc "fp"]))
                    (SetA "effective_function_" (Tot "append f" [Att "effective_function_"; Loc "fp"])) ;;
                 SetA "effective_function_params_"
                      (May "append {} if p is None else p.copy()" [Att "effective_function_params_"; Loc "fp"])) ;;
            SetA "effective_function_" (Tot "tuple" [Att "effective_function_"]) ;;
            SetA "effective_function_params_" (Tot "tuple" [Att "effective_function_params_"])));
  c_meths := [("transform",
    Fitted None ;;
    Let "Xt" (May "check_array" [X]) ;;
    guard (Tot "X.ndim != 3" [Loc "Xt"]) ValueError ;;
    guard (Tot "Xt.shape[1] != n" [Loc "Xt"; Att "n_channels_"]) ValueError ;;
    Return (May "_parallel_featurization"
              [Loc "Xt"; Att "effective_function_"; Att "effective_function_params_"; Par "n_jobs"]))];
  c_public := ["n_channels_"; "effective_function_"; "effective_function_params_"] |}.

(* curves/preprocessing.py Derivative.fit 71-87, transform 108-119 *)
Definition Derivative : cls := {|
  c_name := "Derivative";
  c_fit :=
    chk_ "check_array" ;;
    guard (Tot "X.ndim != 3" [X]) ValueError ;;
    validate ["order"] ;;
    Let "n_bins" (Tot "X.shape[2]" [X]) ;;
    guard (Tot "order >= n_bins" [Par "order"; Loc "n_bins"]) ValueError ;;
    SetA "n_channels_" (Tot "X.shape[1]" [X]);
  c_meths := [("transform",
    Fitted None ;;
    Let "Xt" (May "check_array" [X]) ;;
    guard (Tot "X.ndim != 3" [Loc "Xt"]) ValueError ;;
    Return (May "np.diff" [Loc "Xt"; Par "order"; Par "n_jobs"]))];
  c_public := ["n_channels_"] |}.

(* --- diagrams ------------------------------------------------------------ *)

(* the prefix shared by Amplitude, PairwiseDistance and Scaler: validation, the
   copy of [metric_params], the homology dimensions and the samplings; [last] is the
   third validated parameter *)
Definition metric_fit (last available : string) : stmt :=
  chk "check_diagrams" ;;
  validate ["metric"; "metric_params"; last] ;;
  SetA "effective_metric_params_" (Tot "{} if p is None else p.copy()" [Par "metric_params"]) ;;
  Let "_" (May available [Att "effective_metric_params_"; Par "metric"]) ;;
  Let "homology_dimensions_fit" (Tot "np.unique(X[0, :, 2])" [X]) ;;
  SetA "homology_dimensions_" (Tot "_homology_dimensions_to_sorted_ints" [Loc "homology_dimensions_fit"]) ;;
  SetA "effective_metric_params_" (May "with samplings, step_sizes = _bin" [X; Par "metric"; Att "effective_metric_params_"]) ;;
  If (Tot "metric == 'persistence_image'" [Par "metric"])
     (Let "weight_function" (Tot "get('weight_function') or np.ones_like" [Att "effective_metric_params_"]) ;;
      SetA "effective_metric_params_" (Tot "with weight_function" [Att "effective_metric_params_"; Loc "weight_function"]))
     Skip.

(* diagrams/distance.py PairwiseDistance.fit 171-201, transform 232-242 *)
Definition PairwiseDistance : cls := {|
  c_name := "PairwiseDistance";
  c_fit := metric_fit "order" "validate_params(effective, _AVAILABLE_METRICS)" ;; SetA "_X" (Tot "id" [X]);
  c_meths := [("transform",
    Fitted None ;;
    Let "Xt" (May "check_diagrams" [X]) ;;
    Let "Xt" (May "_parallel_pairwise"
                [Loc "Xt"; Att "_X"; Par "metric"; Att "effective_metric_params_"; Att "homology_dimensions_"; Par "n_jobs"]) ;;
    If (Tot "is not None" [Par "order"]) (Let "Xt" (May "np.linalg.norm" [Loc "Xt"; Par "order"])) Skip ;;
    Return (Tot "id" [Loc "Xt"]))];
  c_public := ["effective_metric_params_"; "homology_dimensions_"] |}.

(* diagrams/features.py PersistenceEntropy.fit 133-144, transform 171-186 *)
Definition PersistenceEntropy : cls := {|
  c_name := "PersistenceEntropy";
  c_fit :=
    chk "check_diagrams" ;;
    validate ["normalize"; "nan_fill_value"] ;;
    Let "homology_dimensions_fit" (Tot "np.unique(X[0, :, 2])" [X]) ;;
    SetA "homology_dimensions_" (Tot "_homology_dimensions_to_sorted_ints" [Loc "homology_dimensions_fit"]) ;;
    SetA "_n_dimensions" (Tot "len" [Att "homology_dimensions_"]);
  c_meths := [("transform",
    Fitted None ;;
    chk "check_diagrams" ;;
    Let "Xt" (May "_persistence_entropy"
                [X; Par "normalize"; Par "nan_fill_value"; Att "homology_dimensions_"; Par "n_jobs"]) ;;
    Return (May "reshape" [Loc "Xt"; Att "_n_dimensions"; X]))];
  c_public := ["homology_dimensions_"] |}.

(* diagrams/features.py Amplitude.fit 330-359, transform 387-397 *)
Definition Amplitude : cls := {|
  c_name := "Amplitude";
  c_fit := metric_fit "order" "validate_params(effective, _AVAILABLE_AMPLITUDE_METRICS)";
  c_meths := [("transform",
    Fitted None ;;
    Let "Xt" (May "check_diagrams" [X]) ;;
    Let "Xt" (May "_parallel_amplitude"
                [Loc "Xt"; Par "metric"; Att "effective_metric_params_"; Att "homology_dimensions_"; Par "n_jobs"]) ;;
    If (Tot "is not None" [Par "order"]) (Let "Xt" (May "np.linalg.norm" [Loc "Xt"; Par "order"])) Skip ;;
    Return (Tot "id" [Loc "Xt"]))];
  c_public := ["effective_metric_params_"; "homology_dimensions_"] |}.

(* diagrams/features.py NumberOfPoints.fit 467-476, transform 504-514 *)
Definition NumberOfPoints : cls := {|
  c_name := "NumberOfPoints";
  c_fit :=
    chk "check_diagrams" ;;
    Let "homology_dimensions_fit" (Tot "np.unique(X[0, :, 2])" [X]) ;;
    SetA "homology_dimensions_" (Tot "_homology_dimensions_to_sorted_ints" [Loc "homology_dimensions_fit"]) ;;
    SetA "_n_dimensions" (Tot "len" [Att "homology_dimensions_"]);
  c_meths := [("transform",
    Fitted None ;;
    chk "check_diagrams" ;;
    Let "Xt" (May "_number_points" [X; Att "homology_dimensions_"; Par "n_jobs"]) ;;
    Return (May "reshape" [Loc "Xt"; Att "_n_dimensions"; X]))];
  c_public := ["homology_dimensions_"] |}.

(* diagrams/features.py ComplexPolynomial.fit 635-667, _complex_polynomial
   670-682 and transform 711-723 *)
Definition ComplexPolynomial : cls := {|
  c_name := "ComplexPolynomial";
  c_fit :=
    validate ["polynomial_type"; "n_coefficients"] ;;
    chk "check_diagrams" ;;
    Let "homology_dimensions_fit" (Tot "np.unique(X[0, :, 2])" [X]) ;;
    Let "counts" (Tot "counts" [X]) ;;
    SetA "homology_dimensions_" (Tot "_homology_dimensions_to_sorted_ints" [Loc "homology_dimensions_fit"]) ;;
    Let "_n_homology_dimensions" (Tot "len" [Att "homology_dimensions_"]) ;;
    Let "_homology_dimensions_counts" (Tot "dict(zip)" [Loc "homology_dimensions_fit"; Loc "counts"]) ;;
    If (Tot "is None" [Par "n_coefficients"])
       (SetA "n_coefficients_" (Tot "[counts[dim] for dim in dims]" [Loc "_homology_dimensions_counts"; Att "homology_dimensions_"]))
       (If (Tot "type == list" [Par "n_coefficients"])
           (guard (Tot "len != n" [Par "n_coefficients"; Loc "_n_homology_dimensions"]) ValueError ;;
            SetA "n_coefficients_" (Tot "id" [Par "n_coefficients"]))
           (SetA "n_coefficients_" (Tot "[n] * k" [Par "n_coefficients"; Loc "_n_homology_dimensions"]))) ;;
    SetA "_polynomial_function" (Tot "recipes[polynomial_type]" [Par "polynomial_type"]);
  c_meths := [("transform",
    Fitted None ;;
    Let "Xt" (May "check_diagrams" [X]) ;;
    Return (May "_complex_polynomial"
              [Loc "Xt"; Att "homology_dimensions_"; Att "n_coefficients_"; Att "_polynomial_function"; Par "n_jobs"]))];
  c_public := ["homology_dimensions_"; "n_coefficients_"] |}.

(* diagrams/preprocessing.py ForgetDimension.fit 59-62, transform 84-89 *)
Definition ForgetDimension : cls := {|
  c_name := "ForgetDimension";
  c_fit := chk_ "check_diagrams" ;; SetA "_is_fitted" (Tot "True" []);
  c_meths := [("transform",
    Fitted (Some ["_is_fitted"]) ;;
    Let "Xt" (May "check_diagrams" [X]) ;;
    Return (Tot "Xt[:, :, 2] = inf" [Loc "Xt"]))];
  c_public := [] |}.

(* diagrams/preprocessing.py Scaler.fit 232-267, transform 292-296,
   inverse_transform 313-317 *)
Definition Scaler : cls := {|
  c_name := "Scaler";
  c_fit :=
    metric_fit "function" "validate_params(effective, _AVAILABLE_AMPLITUDE_METRICS)" ;;
    Let "amplitude_array" (May "_parallel_amplitude"
           [X; Par "metric"; Att "effective_metric_params_"; Att "homology_dimensions_"; Par "n_jobs"]) ;;
    SetA "scale_" (May "function" [Par "function"; Loc "amplitude_array"]);
  c_meths := [("transform",
    Fitted None ;;
    Let "Xs" (May "check_diagrams" [X]) ;;
    Return (May "Xs[:, :, :2] /= scale" [Loc "Xs"; Att "scale_"]));
   ("inverse_transform",
    Fitted None ;;
    Let "Xs" (May "check_diagrams" [X]) ;;
    Return (May "Xs[:, :, :2] *= scale" [Loc "Xs"; Att "scale_"]))];
  c_public := ["effective_metric_params_"; "homology_dimensions_"; "scale_"] |}.

(* diagrams/preprocessing.py Filtering.fit 437-450, transform 477-481 *)
Definition Filtering : cls := {|
  c_name := "Filtering";
  c_fit :=
    chk "check_diagrams" ;;
    validate ["homology_dimensions"; "epsilon"] ;;
    If (Tot "is None" [Par "homology_dimensions"])
       (Let "homology_dimensions" (Tot "np.unique(X[0, :, 2])" [X]))
       (Let "homology_dimensions" (Tot "id" [Par "homology_dimensions"])) ;;
    SetA "homology_dimensions_" (May "_homology_dimensions_to_sorted_ints" [Loc "homology_dimensions"]);
  c_meths := [("transform",
    Fitted None ;;
    chk "check_diagrams" ;;
    Return (May "_filter" [X; Att "homology_dimensions_"; Par "epsilon"]))];
  c_public := ["homology_dimensions_"] |}.

(* the common part of the five sampled representations: validation, homology
   dimensions, their number *)
Definition repr_fit (ps : list string) : stmt :=
  chk "check_diagrams" ;;
  validate ps ;;
  Let "homology_dimensions_fit" (Tot "np.unique(X[0, :, 2])" [X]) ;;
  SetA "homology_dimensions_" (Tot "_homology_dimensions_to_sorted_ints" [Loc "homology_dimensions_fit"]) ;;
  SetA "_n_dimensions" (Tot "len" [Att "homology_dimensions_"]).

(* [self._samplings, self._step_size = _bin(X, metric, n_bins, dims)] *)
Definition repr_bin : stmt :=
  Let "binned" (May "_bin" [X; Par "n_bins"; Att "homology_dimensions_"]) ;;
  SetA "_samplings" (Tot "fst" [Loc "binned"]).

(* diagrams/representations.py BettiCurve.fit 112-130, transform 158-170 *)
Definition BettiCurve : cls := {|
  c_name := "BettiCurve";
  c_fit := repr_fit ["n_bins"] ;; repr_bin ;;
           SetA "samplings_" (Tot "flatten" [Att "_samplings"]);
  c_meths := [("transform",
    Fitted None ;;
    chk "check_diagrams" ;;
    Let "Xt" (May "betti_curves" [X; Att "homology_dimensions_"; Att "_samplings"; Par "n_jobs"]) ;;
    Return (May "reshape" [Loc "Xt"; Att "_n_dimensions"; X]))];
  c_public := ["homology_dimensions_"; "samplings_"] |}.

(* diagrams/representations.py PersistenceLandscape.fit 345-363, transform
   394-409 *)
Definition PersistenceLandscape : cls := {|
  c_name := "PersistenceLandscape";
  c_fit := repr_fit ["n_layers"; "n_bins"] ;; repr_bin ;;
           SetA "samplings_" (Tot "flatten" [Att "_samplings"]);
  c_meths := [("transform",
    Fitted None ;;
    chk "check_diagrams" ;;
    Let "Xt" (May "landscapes" [X; Att "homology_dimensions_"; Att "_samplings"; Par "n_layers"; Par "n_jobs"]) ;;
    Return (May "reshape" [Loc "Xt"; Att "_n_dimensions"; X; Par "n_layers"; Par "n_bins"]))];
  c_public := ["homology_dimensions_"; "samplings_"] |}.

(* diagrams/representations.py HeatKernel.fit 615-633, transform 663-674 *)
Definition HeatKernel : cls := {|
  c_name := "HeatKernel";
  c_fit := repr_fit ["sigma"; "n_bins"] ;; repr_bin ;;
           SetA "_step_size" (Tot "snd" [Loc "binned"]) ;;
           SetA "samplings_" (Tot "flatten" [Att "_samplings"]);
  c_meths := [("transform",
    Fitted None ;;
    chk "check_diagrams" ;;
    Let "Xt" (May "heats" [X; Att "homology_dimensions_"; Att "_samplings"; Att "_step_size"; Par "sigma"; Par "n_jobs"]) ;;
    Return (May "reshape" [Loc "Xt"; Att "_n_dimensions"; X; Par "n_bins"]))];
  c_public := ["homology_dimensions_"; "samplings_"] |}.

(* diagrams/representations.py PersistenceImage.fit 854-880, transform 910-927 *)
Definition PersistenceImage : cls := {|
  c_name := "PersistenceImage";
  c_fit :=
    chk "check_diagrams" ;;
    validate ["sigma"; "n_bins"; "weight_function"] ;;
    SetA "effective_weight_function_" (Tot "np.ones_like if p is None else p" [Par "weight_function"]) ;;
    Let "homology_dimensions_fit" (Tot "np.unique(X[0, :, 2])" [X]) ;;
    SetA "homology_dimensions_" (Tot "_homology_dimensions_to_sorted_ints" [Loc "homology_dimensions_fit"]) ;;
    SetA "_n_dimensions" (Tot "len" [Att "homology_dimensions_"]) ;;
    repr_bin ;;
    SetA "_step_size" (Tot "snd" [Loc "binned"]) ;;
    SetA "weights_" (May "weight_function(samplings)" [Att "effective_weight_function_"; Att "_samplings"]) ;;
    SetA "samplings_" (Tot "transpose" [Att "_samplings"]);
  c_meths := [("transform",
    Fitted None ;;
    chk "check_diagrams" ;;
    Let "Xt" (May "persistence_images" [X; Att "homology_dimensions_"; Att "_samplings"; Att "_step_size"; Par "sigma"; Att "weights_"; Par "n_jobs"]) ;;
    Return (May "reshape" [Loc "Xt"; Att "_n_dimensions"; X; Par "n_bins"]))];
  c_public := ["effective_weight_function_"; "homology_dimensions_"; "samplings_"; "weights_"] |}.

(* diagrams/representations.py Silhouette.fit 1088-1106, transform 1134-1146 *)
Definition Silhouette : cls := {|
  c_name := "Silhouette";
  c_fit := repr_fit ["power"; "n_bins"] ;; repr_bin ;;
           SetA "samplings_" (Tot "flatten" [Att "_samplings"]);
  c_meths := [("transform",
    Fitted None ;;
    chk "check_diagrams" ;;
    Let "Xt" (May "silhouettes" [X; Att "homology_dimensions_"; Att "_samplings"; Par "power"; Par "n_jobs"]) ;;
    Return (May "reshape" [Loc "Xt"; Att "_n_dimensions"; X]))];
  c_public := ["homology_dimensions_"; "samplings_"] |}.

(* --- graphs -------------------------------------------------------------- *)

(* graphs/geodesic_distance.py GraphGeodesicDistance.fit 145-148, transform
   173-183 *)
Definition GraphGeodesicDistance : cls := {|
  c_name := "GraphGeodesicDistance";
  c_fit := chk "check_graph" ;; SetA "_is_fitted" (Tot "True" []);
  c_meths := [("transform",
    Fitted (Some ["_is_fitted"]) ;;
    chk "check_graph" ;;
    Return (May "_geodesic_distance" [X; Par "directed"; Par "unweighted"; Par "method"; Par "n_jobs"]))];
  c_public := [] |}.

(* graphs/kneighbors.py KNeighborsGraph.fit 117-122, transform 150-162 *)
Definition KNeighborsGraph : cls := {|
  c_name := "KNeighborsGraph";
  c_fit :=
    SetA "_is_precomputed" (Tot "== 'precomputed'" [Par "metric"]) ;;
    Let "_" (May "check_point_clouds" [X; Att "_is_precomputed"]) ;;
    SetA "_is_fitted" (Tot "True" []);
  c_meths := [("transform",
    Fitted (Some ["_is_fitted"]) ;;
    Let "Xt" (May "check_point_clouds" [X; Att "_is_precomputed"]) ;;
    Return (May "kneighbors_graph" [Loc "Xt"; Par "n_neighbors"; Par "metric"; Par "p"; Par "metric_params"; Par "mode"; Par "n_jobs"]))];
  c_public := [] |}.

(* graphs/transition.py TransitionGraph.fit 153-167, transform 191-197 (with
   _make_adjacency_matrix) *)
Definition TransitionGraph : cls := {|
  c_name := "TransitionGraph";
  c_fit :=
    chk_ "check_point_clouds" ;;
    validate ["func"; "func_params"] ;;
    SetA "_func" (Tot "identity if f is None else f" [Par "func"]) ;;
    SetA "effective_func_params_" (Tot "{} if p is None else p.copy()" [Par "func_params"]);
  c_meths := [("transform",
    Fitted None ;;
    Let "Xt" (May "check_point_clouds" [X]) ;;
    Return (May "_make_adjacency_matrix" [Loc "Xt"; Att "_func"; Par "n_jobs"]))];
  c_public := ["effective_func_params_"] |}.

(* --- homology ------------------------------------------------------------ *)

(* homology/cubical.py CubicalPersistence.fit 152-179, _gudhi_diagram 122-130
   and transform 212-223 *)
Definition CubicalPersistence : cls := {|
  c_name := "CubicalPersistence";
  c_fit :=
    chk "check_collection" ;;
    validate ["homology_dimensions"; "coeff"; "periodic_dimensions"; "infinity_values"; "reduced_homology"] ;;
    SetA "_filtration_kwargs" (Tot "{}" []) ;;
    If (May "periodic_dimensions is None or np.sum(periodic_dimensions) == 0" [Par "periodic_dimensions"])
       (SetA "_filtration" (Tot "CubicalComplex" []) ;;
        SetA "periodic_dimensions_" (Tot "np.zeros(len(X) - 1)" [X]))
       (SetA "_filtration" (Tot "PeriodicCubicalComplex" []) ;;
        SetA "periodic_dimensions_" (May "np.array(p, dtype=bool)" [Par "periodic_dimensions"]) ;;
        SetA "_filtration_kwargs" (Tot "with periodic_dimensions" [Att "_filtration_kwargs"; Att "periodic_dimensions_"])) ;;
    If (Tot "is None" [Par "infinity_values"])
       (SetA "infinity_values_" (May "np.max" [X]))
       (SetA "infinity_values_" (Tot "id" [Par "infinity_values"])) ;;
    SetA "_homology_dimensions" (Tot "sorted" [Par "homology_dimensions"]) ;;
    SetA "_max_homology_dimension" (May "[-1]" [Att "_homology_dimensions"]);
  c_meths := [("transform",
    Fitted None ;;
    Let "Xt" (May "check_collection" [X]) ;;
    Let "Xt" (May "_gudhi_diagram" [Loc "Xt"; Att "_filtration"; Att "_filtration_kwargs"; Par "coeff"; Par "n_jobs"]) ;;
    Return (May "_postprocess_diagrams" [Loc "Xt"; Att "_homology_dimensions"; Att "infinity_values_"; Par "reduced_homology"]))];
  c_public := ["periodic_dimensions_"; "infinity_values_"] |}.

(* the end of the six simplicial fits *)
Definition dims_fit (inf : string) : stmt :=
  SetA "infinity_values_" (Tot "m if p is None else p" [Par "infinity_values"; Par inf]) ;;
  SetA "_homology_dimensions" (Tot "sorted" [Par "homology_dimensions"]) ;;
  SetA "_max_homology_dimension" (May "[-1]" [Att "_homology_dimensions"]).

(* homology/simplicial.py VietorisRipsPersistence.fit 228-243, _ripser_diagram
   177-184 and transform 298-309 *)
Definition VietorisRipsPersistence : cls := {|
  c_name := "VietorisRipsPersistence";
  c_fit :=
    validate ["metric"; "homology_dimensions"; "collapse_edges"; "coeff"; "max_edge_length"; "infinity_values"; "reduced_homology"] ;;
    SetA "_is_precomputed" (Tot "== 'precomputed'" [Par "metric"]) ;;
    Let "_" (May "check_point_clouds" [X; Att "_is_precomputed"]) ;;
    dims_fit "max_edge_length";
  c_meths := [("transform",
    Fitted None ;;
    Let "X" (May "check_point_clouds" [X; Att "_is_precomputed"]) ;;
    Let "Xt" (May "ripser" [X; Att "_max_homology_dimension"; Par "max_edge_length"; Par "coeff"; Par "metric"; Par "metric_params"; Par "collapse_edges"; Par "n_jobs"]) ;;
    Return (May "_postprocess_diagrams" [Loc "Xt"; Att "_homology_dimensions"; Att "infinity_values_"; Par "reduced_homology"]))];
  c_public := ["infinity_values_"] |}.

(* homology/simplicial.py WeightedRipsPersistence.fit 601-629, _ripser_diagram
   546-558 and transform 683-694 *)
Definition WeightedRipsPersistence : cls := {|
  c_name := "WeightedRipsPersistence";
  c_fit :=
    validate ["metric"; "homology_dimensions"; "weights"; "weight_params"; "coeff"; "max_edge_weight"; "infinity_values"; "reduced_homology"] ;;
    guard (Tot "isinstance(weights, str) and weights != 'DTM'" [Par "weights"]) ValueError ;;
    SetA "effective_weight_params_" (Tot "{'p': 1}" []) ;;
    If (Tot "== 'DTM'" [Par "weights"])
       (Let "key" (Tot "'DTM'" []) ;;
        SetA "effective_weight_params_" (Tot "update({'n_neighbors': 3, 'r': 2})" [Att "effective_weight_params_"]))
       (Let "key" (Tot "'general'" [])) ;;
    If (Tot "bool" [Par "weight_params"])
       (SetA "effective_weight_params_" (Tot "update(p)" [Att "effective_weight_params_"; Par "weight_params"]) ;;
        Let "_" (May "validate_params(effective, _AVAILABLE_RIPS_WEIGHTS[key])" [Att "effective_weight_params_"; Loc "key"]))
       Skip ;;
    SetA "_is_precomputed" (Tot "== 'precomputed'" [Par "metric"]) ;;
    Let "_" (May "check_point_clouds" [X; Att "_is_precomputed"]) ;;
    dims_fit "max_edge_weight";
  c_meths := [("transform",
    Fitted None ;;
    Let "X" (May "check_point_clouds" [X; Att "_is_precomputed"]) ;;
    Let "Xt" (May "ripser" [X; Att "_max_homology_dimension"; Par "max_edge_weight"; Par "coeff"; Par "metric"; Par "metric_params"; Par "weights"; Att "effective_weight_params_"; Par "collapse_edges"; Par "n_jobs"]) ;;
    Return (May "_postprocess_diagrams" [Loc "Xt"; Att "_homology_dimensions"; Att "infinity_values_"; Par "reduced_homology"]))];
  c_public := ["infinity_values_"; "effective_weight_params_"] |}.

(* homology/simplicial.py SparseRipsPersistence.fit 899-912, _gudhi_diagram
   856-868 and transform 954-965 *)
Definition SparseRipsPersistence : cls := {|
  c_name := "SparseRipsPersistence";
  c_fit :=
    validate ["metric"; "homology_dimensions"; "coeff"; "epsilon"; "max_edge_length"; "infinity_values"; "reduced_homology"] ;;
    SetA "_is_precomputed" (Tot "== 'precomputed'" [Par "metric"]) ;;
    Let "_" (May "check_point_clouds" [X; Att "_is_precomputed"]) ;;
    dims_fit "max_edge_length";
  c_meths := [("transform",
    Fitted None ;;
    Let "X" (May "check_point_clouds" [X; Att "_is_precomputed"]) ;;
    Let "Xt" (May "SparseRipsComplex" [X; Att "_homology_dimensions"; Par "max_edge_length"; Par "coeff"; Par "metric"; Par "epsilon"; Par "n_jobs"]) ;;
    Return (May "_postprocess_diagrams" [Loc "Xt"; Att "_homology_dimensions"; Att "infinity_values_"; Par "reduced_homology"]))];
  c_public := ["infinity_values_"] |}.

(* homology/simplicial.py WeakAlphaPersistence.fit 1156-1168,
   _weak_alpha_diagram 1110-1130 and transform 1205-1215 *)
Definition WeakAlphaPersistence : cls := {|
  c_name := "WeakAlphaPersistence";
  c_fit :=
    validate ["homology_dimensions"; "coeff"; "max_edge_length"; "infinity_values"; "reduced_homology"] ;;
    chk_ "check_point_clouds" ;;
    dims_fit "max_edge_length";
  c_meths := [("transform",
    Fitted None ;;
    Let "X" (May "check_point_clouds" [X]) ;;
    Let "Xt" (May "_weak_alpha_diagram" [X; Att "_max_homology_dimension"; Par "max_edge_length"; Par "coeff"; Par "n_jobs"]) ;;
    Return (May "_postprocess_diagrams" [Loc "Xt"; Att "_homology_dimensions"; Att "infinity_values_"; Par "reduced_homology"]))];
  c_public := ["infinity_values_"] |}.

(* homology/simplicial.py EuclideanCechPersistence.fit 1382-1394,
   _gudhi_diagram 1349-1356 and transform 1430-1440 *)
Definition EuclideanCechPersistence : cls := {|
  c_name := "EuclideanCechPersistence";
  c_fit :=
    chk_ "check_point_clouds" ;;
    validate ["homology_dimensions"; "coeff"; "max_edge_length"; "infinity_values"; "reduced_homology"] ;;
    dims_fit "max_edge_length";
  c_meths := [("transform",
    Fitted None ;;
    Let "X" (May "check_point_clouds" [X]) ;;
    Let "Xt" (May "CechComplex" [X; Att "_homology_dimensions"; Par "max_edge_length"; Par "coeff"; Par "n_jobs"]) ;;
    Return (May "_postprocess_diagrams" [Loc "Xt"; Att "_homology_dimensions"; Att "infinity_values_"; Par "reduced_homology"]))];
  c_public := ["infinity_values_"] |}.

(* homology/simplicial.py FlagserPersistence.fit 1659-1673, _flagser_diagram
   1612-1623 and transform 1720-1730 *)
Definition FlagserPersistence : cls := {|
  c_name := "FlagserPersistence";
  c_fit :=
    Let "_" (May "check_point_clouds(distance_matrices)" [X]) ;;
    validate ["homology_dimensions"; "directed"; "coeff"; "max_edge_weight"; "infinity_values"; "reduced_homology"; "max_entries"] ;;
    SetA "infinity_values_" (Tot "m if p is None else p" [Par "infinity_values"; Par "max_edge_weight"]) ;;
    SetA "_homology_dimensions" (Tot "sorted" [Par "homology_dimensions"]) ;;
    SetA "_min_homology_dimension" (May "[0]" [Att "_homology_dimensions"]) ;;
    SetA "_max_homology_dimension" (May "[-1]" [Att "_homology_dimensions"]);
  c_meths := [("transform",
    Fitted None ;;
    Let "X" (May "check_point_clouds(distance_matrices)" [X]) ;;
    Let "Xt" (May "flagser_weighted" [X; Att "_min_homology_dimension"; Att "_max_homology_dimension"; Par "max_edge_weight"; Par "directed"; Par "filtration"; Par "coeff"; Par "max_entries"; Par "n_jobs"]) ;;
    Return (May "_postprocess_diagrams" [Loc "Xt"; Att "_homology_dimensions"; Att "infinity_values_"; Par "reduced_homology"]))];
  c_public := ["infinity_values_"] |}.

(* --- images -------------------------------------------------------------- *)

(* the beginning shared by the fits of images: dimension of the images *)
Definition ndims : stmt :=
  SetA "n_dimensions_" (Tot "X.ndim - 1" [X]) ;;
  guard (Tot "> 3" [Att "n_dimensions_"]) ValueError.

(* images/filtrations.py HeightFiltration.fit 120-147, _calculate_height 89-95
   and transform 174-182 *)
Definition HeightFiltration : cls := {|
  c_name := "HeightFiltration";
  c_fit :=
    chk "check_array" ;; ndims ;;
    validate ["direction"] ;;
    If (Tot "is None" [Par "direction"])
       (SetA "direction_" (Tot "np.ones" [Att "n_dimensions_"]))
       (SetA "direction_" (Tot "np.copy" [Par "direction"])) ;;
    SetA "direction_" (Tot "d / np.linalg.norm(d)" [Att "direction_"]) ;;
    Let "mesh_range_list" (May "mesh_range_list" [X; Att "direction_"; Att "n_dimensions_"]) ;;
    SetA "mesh_" (May "np.stack(np.meshgrid)" [Loc "mesh_range_list"; Att "n_dimensions_"]) ;;
    SetA "max_value_" (Tot "0." []) ;;
    SetA "max_value_" (May "np.max(_calculate_height(ones)) + 1" [X; Att "max_value_"; Att "mesh_"; Att "direction_"]);
  c_meths := [("transform",
    Fitted None ;;
    Let "Xt" (May "check_array" [X]) ;;
    Return (May "_calculate_height" [Loc "Xt"; Att "max_value_"; Att "mesh_"; Att "direction_"; Par "n_jobs"]))];
  c_public := ["n_dimensions_"; "direction_"; "mesh_"; "max_value_"] |}.

(* images/filtrations.py RadialFiltration.fit 353-383, _calculate_radial
   322-328 and transform 408-416 *)
Definition RadialFiltration : cls := {|
  c_name := "RadialFiltration";
  c_fit :=
    chk "check_array" ;; ndims ;;
    validate ["center"; "radius"; "metric"; "metric_params"] ;;
    If (Tot "is None" [Par "center"])
       (SetA "center_" (Tot "np.zeros" [Att "n_dimensions_"]))
       (SetA "center_" (Tot "np.copy" [Par "center"])) ;;
    SetA "center_" (Tot "reshape((1, -1))" [Att "center_"]) ;;
    Let "mesh_range_list" (May "mesh_range_list" [X; Att "n_dimensions_"]) ;;
    SetA "mesh_" (May "np.stack(np.meshgrid).reshape" [Loc "mesh_range_list"; Att "n_dimensions_"]) ;;
    SetA "mesh_" (May "pairwise_distances.reshape" [Att "center_"; Att "mesh_"; Par "metric"; Par "metric_params"; X]) ;;
    SetA "mesh_" (Tot "mesh[mesh > radius] = inf" [Att "mesh_"; Par "radius"]) ;;
    SetA "max_value_" (Tot "0." []) ;;
    SetA "max_value_" (May "np.max(_calculate_radial(ones)) + 1" [X; Att "max_value_"; Att "mesh_"]);
  c_meths := [("transform",
    Fitted None ;;
    Let "Xt" (May "check_array" [X]) ;;
    Return (May "_calculate_radial" [Loc "Xt"; Att "max_value_"; Att "mesh_"; Par "n_jobs"]))];
  c_public := ["n_dimensions_"; "center_"; "mesh_"; "max_value_"] |}.

(* the three filtrations by iterated dilation or erosion *)
Definition iter_fit : stmt :=
  chk "check_array" ;; ndims ;;
  validate ["n_iterations"] ;;
  SetA "max_value_" (Tot "np.sum(X.shape[1:])" [X]) ;;
  SetA "n_iterations_" (Tot "int(m) if p is None else p" [Par "n_iterations"; Att "max_value_"]).

Definition iter_transform (n : string) : stmt :=
  Fitted None ;;
  Let "Xt" (May "check_array" [X]) ;;
  Return (May n [Loc "Xt"; Att "n_iterations_"; Att "max_value_"; Par "n_jobs"]).

(* images/filtrations.py DilationFiltration.fit 561-576, _calculate_dilation
   531-536 and transform 602-610 *)
Definition DilationFiltration : cls := {|
  c_name := "DilationFiltration";
  c_fit := iter_fit;
  c_meths := [("transform", iter_transform "_calculate_dilation")];
  c_public := ["n_dimensions_"; "max_value_"; "n_iterations_"] |}.

(* images/filtrations.py ErosionFiltration.fit 755-770, _calculate_erosion
   725-730 and transform 796-804 *)
Definition ErosionFiltration : cls := {|
  c_name := "ErosionFiltration";
  c_fit := iter_fit;
  c_meths := [("transform", iter_transform "_calculate_erosion")];
  c_public := ["n_dimensions_"; "max_value_"; "n_iterations_"] |}.

(* images/filtrations.py SignedDistanceFiltration.fit 957-972,
   _calculate_signed_distance 920-932 and transform 998-1006 *)
Definition SignedDistanceFiltration : cls := {|
  c_name := "SignedDistanceFiltration";
  c_fit := iter_fit;
  c_meths := [("transform", iter_transform "_calculate_signed_distance")];
  c_public := ["n_dimensions_"; "max_value_"; "n_iterations_"] |}.

(* images/filtrations.py DensityFiltration.fit 1157-1202, _calculate_density
   1124-1133 and transform 1227-1248.  [_padder] is a nested Padder object. *)
Definition DensityFiltration : cls := {|
  c_name := "DensityFiltration";
  c_fit :=
    chk "check_array" ;; ndims ;;
    validate ["radius"; "metric"; "metric_params"] ;;
    SetA "_size" (May "int(np.ceil(pairwise_distances([[0]], [[radius]])))" [Par "radius"; Par "metric"; Par "metric_params"]) ;;
    SetA "mask_" (Tot "np.ones" [Att "_size"]) ;;
    Let "iterator_size_list" (Tot "iterator_size_list" [Att "_size"; Att "n_dimensions_"]) ;;
    SetA "_iterator" (Tot "tuple(itertools.product)" [Loc "iterator_size_list"]) ;;
    SetA "mesh_" (Tot "np.stack(np.meshgrid)" [Att "_size"]) ;;
    SetA "mask_" (May "pairwise_distances(center, mesh)" [Att "_size"; Att "mesh_"; Par "metric"; Par "metric_params"; Att "mask_"]) ;;
    SetA "mask_" (Tot "<= radius" [Att "mask_"; Par "radius"]) ;;
    Let "padding" (Tot "padding" [Att "_size"; Att "n_dimensions_"]) ;;
    SetA "_padder" (Tot "Padder(padding)" [Loc "padding"]) ;;
    SetA "_padder" (May "_padder.fit(X)" [Att "_padder"; X]);
  c_meths := [("transform",
    Fitted None ;;
    Let "Xt" (May "check_array" [X]) ;;
    Let "Xt" (May "reshape to 3D" [Loc "Xt"]) ;;
    Let "Xt" (May "_padder.transform" [Att "_padder"; Loc "Xt"]) ;;
    Let "Xt" (May "_calculate_density" [Loc "Xt"; Att "_iterator"; Att "mask_"; Att "_size"; Par "n_jobs"]) ;;
    Let "Xt" (Tot "Xt[:, size: -size, size: -size]" [Loc "Xt"; Att "_size"]) ;;
    If (Tot "== 3" [Att "n_dimensions_"])
       (Let "Xt" (Tot "Xt[:, :, :, size: -size]" [Loc "Xt"; Att "_size"]))
       Skip ;;
    Return (May "reshape to X.shape" [Loc "Xt"; X]))];
  c_public := ["n_dimensions_"; "mask_"; "mesh_"] |}.

(* images/preprocessing.py Binarizer.fit 94-104, _binarize 67-69 and transform
   129-140.  The last lines of transform, "if n_dimensions_ == 2:
   Xt.reshape(X.shape)", are left out: Xt already has the shape of X. *)
Definition Binarizer : cls := {|
  c_name := "Binarizer";
  c_fit :=
    chk "check_array" ;; ndims ;;
    validate ["threshold"] ;;
    SetA "max_value_" (May "np.max" [X]);
  c_meths := [("transform",
    Fitted None ;;
    Let "Xt" (May "check_array" [X]) ;;
    Return (Tot "_binarize" [Loc "Xt"; Att "max_value_"; Par "threshold"; Par "n_jobs"]))];
  c_public := ["n_dimensions_"; "max_value_"] |}.

(* images/preprocessing.py Inverter.fit 261-277, transform 301-309 *)
Definition Inverter : cls := {|
  c_name := "Inverter";
  c_fit :=
    chk_ "check_array" ;; ndims ;;
    validate ["max_value"] ;;
    SetA "max_value_" (May "p if p is not None else True if bool else np.max(X)" [Par "max_value"; X]);
  c_meths := [("transform",
    Fitted None ;;
    Let "Xt" (May "check_array" [X]) ;;
    Return (May "_invert" [Loc "Xt"; Att "max_value_"; Par "n_jobs"]))];
  c_public := ["n_dimensions_"; "max_value_"] |}.

(* images/preprocessing.py Padder.fit 425-447, transform 471-480 *)
Definition Padder : cls := {|
  c_name := "Padder";
  c_fit :=
    chk "check_array" ;; ndims ;;
    validate ["padding"] ;;
    If (Tot "is None" [Par "padding"])
       (SetA "padding_" (Tot "np.ones" [Att "n_dimensions_"]))
       (If (Tot "len != n" [Par "padding"; Att "n_dimensions_"])
           (Raise ValueError)
           (SetA "padding_" (Tot "id" [Par "padding"]))) ;;
    SetA "_pad_width" (Tot "pad_width" [Att "padding_"; Att "n_dimensions_"]);
  c_meths := [("transform",
    Fitted None ;;
    Let "Xt" (May "check_array" [X]) ;;
    Return (May "np.pad" [Loc "Xt"; Att "_pad_width"; Par "value"; Par "n_jobs"]))];
  c_public := ["n_dimensions_"; "padding_"] |}.

(* images/preprocessing.py ImageToPointCloud.fit 592-598, transform 623-631 *)
Definition ImageToPointCloud : cls := {|
  c_name := "ImageToPointCloud";
  c_fit := chk_ "check_array" ;; ndims;
  c_meths := [("transform",
    Fitted None ;;
    Let "Xt" (May "check_array" [X]) ;;
    Return (May "_embed" [Loc "Xt"; Par "n_jobs"]))];
  c_public := ["n_dimensions_"] |}.

(* --- point clouds -------------------------------------------------------- *)

(* point_clouds/rescaling.py ConsistentRescaling.fit 150-159, transform
   186-192 *)
Definition ConsistentRescaling : cls := {|
  c_name := "ConsistentRescaling";
  c_fit :=
    chk_ "check_array" ;;
    validate ["metric"; "metric_params"; "neighbor_rank"] ;;
    SetA "effective_metric_params_" (Tot "{} if p is None else p.copy()" [Par "metric_params"]);
  c_meths := [("transform",
    Fitted None ;;
    Let "Xt" (May "check_array" [X]) ;;
    Return (May "_consistent_rescaling" [Loc "Xt"; Par "metric"; Att "effective_metric_params_"; Par "neighbor_rank"; Par "n_jobs"]))];
  c_public := ["effective_metric_params_"] |}.

(* point_clouds/rescaling.py ConsecutiveRescaling.fit 334-343, transform
   370-386 *)
Definition ConsecutiveRescaling : cls := {|
  c_name := "ConsecutiveRescaling";
  c_fit :=
    chk_ "check_array" ;;
    validate ["metric"; "metric_params"; "factor"] ;;
    SetA "effective_metric_params_" (Tot "{} if p is None else p.copy()" [Par "metric_params"]);
  c_meths := [("transform",
    Fitted None ;;
    Let "is_precomputed" (Tot "== 'precomputed'" [Par "metric"]) ;;
    Let "X" (May "check_array" [X; Loc "is_precomputed"]) ;;
    Let "Xt" (May "pairwise_distances" [X; Par "metric"; Att "effective_metric_params_"; Par "n_jobs"]) ;;
    Return (May "Xt[:, range, range] *= factor" [X; Loc "Xt"; Loc "is_precomputed"; Par "factor"]))];
  c_public := ["effective_metric_params_"] |}.

(* --- time series --------------------------------------------------------- *)

(* time_series/embedding.py SlidingWindow.fit 219-223, transform 243-249 (with
   _window_indices 184-194), resample 272-276 *)
Definition SlidingWindow : cls := {|
  c_name := "SlidingWindow";
  c_fit := chk_ "check_array" ;; validate ["size"; "stride"] ;; SetA "_is_fitted" (Tot "True" []);
  c_meths := [("transform",
    Fitted (Some ["_is_fitted"]) ;;
    Let "Xt" (May "check_array" [X]) ;;
    Let "window_indices" (May "_window_indices" [Loc "Xt"; Par "size"; Par "stride"]) ;;
    Return (Tot "Xt[window_indices]" [Loc "Xt"; Loc "window_indices"]));
   ("resample",
    Fitted (Some ["_is_fitted"]) ;;
    Let "yr" (May "column_or_1d" [X]) ;;
    Return (Tot "yr[:size - 2:-stride][::-1]" [Loc "yr"; Par "size"; Par "stride"]))];
  c_public := [] |}.

(* time_series/embedding.py SingleTakensEmbedding.fit 440-454, transform
   475-483, resample 506-511 *)
Definition SingleTakensEmbedding : cls := {|
  c_name := "SingleTakensEmbedding";
  c_fit :=
    chk "column_or_1d" ;;
    validate ["parameters_type"; "time_delay"; "dimension"; "stride"] ;;
    If (Tot "== 'search'" [Par "parameters_type"])
       (Let "pair" (May "takens_embedding_optimal_parameters" [X; Par "time_delay"; Par "dimension"; Par "stride"; Par "n_jobs"]) ;;
        SetA "time_delay_" (Tot "fst" [Loc "pair"]) ;;
        SetA "dimension_" (Tot "snd" [Loc "pair"]))
       (SetA "time_delay_" (Tot "id" [Par "time_delay"]) ;;
        SetA "dimension_" (Tot "id" [Par "dimension"]));
  c_meths := [("transform",
    Fitted None ;;
    Let "Xt" (May "column_or_1d" [X]) ;;
    Return (May "_time_delay_embedding" [Loc "Xt"; Att "time_delay_"; Att "dimension_"; Par "stride"]));
   ("resample",
    Fitted None ;;
    Let "yr" (May "column_or_1d" [X]) ;;
    Let "final_index" (Tot "time_delay * (dimension - 1)" [Att "time_delay_"; Att "dimension_"]) ;;
    Return (Tot "yr[:final_index - 1:-stride][::-1]" [Loc "yr"; Loc "final_index"; Par "stride"]))];
  c_public := ["time_delay_"; "dimension_"] |}.

(* time_series/embedding.py TakensEmbedding.fit 670-674, transform 716-725 *)
Definition TakensEmbedding : cls := {|
  c_name := "TakensEmbedding";
  c_fit := chk_ "check_collection" ;; validate ["time_delay"; "dimension"; "stride"; "flatten"; "ensure_last_value"] ;;
           SetA "_is_fitted" (Tot "True" []);
  c_meths := [("transform",
    Fitted (Some ["_is_fitted"]) ;;
    Let "Xt" (May "check_collection" [X]) ;;
    Return (May "_time_delay_embedding" [Loc "Xt"; Par "time_delay"; Par "dimension"; Par "stride"; Par "flatten"; Par "ensure_last_value"]))];
  c_public := [] |}.

(* time_series/features.py PermutationEntropy.fit 79-82, transform 103-110 *)
Definition PermutationEntropy : cls := {|
  c_name := "PermutationEntropy";
  c_fit := chk_ "check_array" ;; SetA "_is_fitted" (Tot "True" []);
  c_meths := [("transform",
    Fitted (Some ["_is_fitted"]) ;;
    Let "Xt" (May "check_array" [X]) ;;
    Return (May "_permutation_entropy" [Loc "Xt"; Par "n_jobs"]))];
  c_public := [] |}.

(* time_series/multivariate.py PearsonDissimilarity.fit 75-80, transform
   101-109 *)
Definition PearsonDissimilarity : cls := {|
  c_name := "PearsonDissimilarity";
  c_fit := chk_ "check_array" ;; validate ["absolute_value"] ;; SetA "_is_fitted" (Tot "True" []);
  c_meths := [("transform",
    Fitted (Some ["_is_fitted"]) ;;
    Let "X" (May "check_array" [X]) ;;
    Return (May "np.corrcoef" [X; Par "absolute_value"]))];
  c_public := [] |}.

(* time_series/preprocessing.py Resampler.fit 67-71, transform 91-98, resample
   118-122 *)
Definition Resampler : cls := {|
  c_name := "Resampler";
  c_fit := chk_ "check_array" ;; validate ["period"] ;; SetA "_is_fitted" (Tot "True" []);
  c_meths := [("transform",
    Fitted (Some ["_is_fitted"]) ;;
    Let "Xt" (May "check_array" [X]) ;;
    Return (Tot "Xt[::period]" [Loc "Xt"; Par "period"]));
   ("resample",
    Fitted (Some ["_is_fitted"]) ;;
    Let "yr" (May "column_or_1d" [X]) ;;
    Return (Tot "yr[::period]" [Loc "yr"; Par "period"]))];
  c_public := [] |}.

(* time_series/preprocessing.py Stationarizer.fit 189-193, transform 213-222,
   resample 242-245 *)
Definition Stationarizer : cls := {|
  c_name := "Stationarizer";
  c_fit := chk_ "check_array" ;; validate ["operation"] ;; SetA "_is_fitted" (Tot "True" []);
  c_meths := [("transform",
    Fitted (Some ["_is_fitted"]) ;;
    Let "Xt" (May "check_array" [X]) ;;
    If (Tot "== 'return'" [Par "operation"])
       (Return (Tot "np.diff(Xt) / Xt[1:]" [Loc "Xt"]))
       (Return (Tot "np.diff(np.log(Xt))" [Loc "Xt"])));
   ("resample",
    Fitted (Some ["_is_fitted"]) ;;
    Let "y" (May "column_or_1d" [X]) ;;
    Return (Tot "y[1:]" [Loc "y"]))];
  c_public := [] |}.

(* time_series/target.py Labeller.fit 105-122, transform 142-149, resample
   169-188.  [SlidingWindow(size, stride=1).fit(X)] raises or gives an object
   that holds its two parameters and the flag _is_fitted only (SlidingWindow.fit
   above), hence the two statements. *)
Definition Labeller : cls := {|
  c_name := "Labeller";
  c_fit :=
    chk "column_or_1d" ;;
    validate ["size"; "func"; "func_params"; "percentiles"; "n_steps_future"] ;;
    Let "_" (May "SlidingWindow.fit" [X; Par "size"]) ;;
    SetA "_sliding_window" (Tot "SlidingWindow" [Par "size"]) ;;
    Let "_X" (May "_sliding_window.transform" [Att "_sliding_window"; X]) ;;
    SetA "_effective_func_params" (Tot "{} if p is None else p" [Par "func_params"]) ;;
    Let "_X" (May "func" [Par "func"; Loc "_X"; Att "_effective_func_params"]) ;;
    If (Tot "is None" [Par "percentiles"])
       (SetA "thresholds_" (Tot "None" []))
       (SetA "thresholds_" (May "np.percentile" [Loc "_X"; Par "percentiles"]));
  c_meths := [("transform",
    Fitted None ;;
    Let "Xt" (May "column_or_1d" [X]) ;;
    Return (Tot "Xt[:-n_steps_future][size - 1 - n_steps_future:]" [Loc "Xt"; Par "n_steps_future"; Par "size"]));
   ("resample",
    Fitted None ;;
    Let "y" (May "column_or_1d" [X]) ;;
    Let "yr" (May "_sliding_window.transform" [Att "_sliding_window"; Loc "y"]) ;;
    Let "yr" (May "func" [Par "func"; Loc "yr"; Att "_effective_func_params"]) ;;
    If (Tot "is not None" [Att "thresholds_"])
       (Let "yr" (May "labels" [Loc "yr"; Att "thresholds_"])) Skip ;;
    Return (Tot "yr[n_steps_future - size + 1:]" [Loc "yr"; Par "n_steps_future"; Par "size"]))];
  c_public := ["thresholds_"] |}.

(* --- mapper -------------------------------------------------------------- *)

(* mapper/filter.py Eccentricity.fit 71-74, transform 95-104 *)
Definition Eccentricity : cls := {|
  c_name := "Eccentricity";
  c_fit := chk_ "check_array" ;; SetA "_is_fitted" (Tot "True" []);
  c_meths := [("transform",
    Fitted (Some ["_is_fitted"]) ;;
    Let "Xt" (May "check_array" [X]) ;;
    If (Tot "!= 'precomputed'" [Par "metric"])
       (Let "Xt" (May "squareform(pdist)" [Loc "Xt"; Par "metric"; Par "metric_params"])) Skip ;;
    Return (May "np.linalg.norm" [Loc "Xt"; Par "exponent"]))];
  c_public := [] |}.

(* mapper/filter.py Entropy.fit 140-143, transform 167-176 *)
Definition Entropy : cls := {|
  c_name := "Entropy";
  c_fit := chk_ "check_array" ;; SetA "_is_fitted" (Tot "True" []);
  c_meths := [("transform",
    Fitted (Some ["_is_fitted"]) ;;
    Let "Xt" (May "check_array" [X]) ;;
    Return (May "entropy" [Loc "Xt"]))];
  c_public := [] |}.

(* mapper/filter.py Projection.fit 216-219, transform 239-248 *)
Definition Projection : cls := {|
  c_name := "Projection";
  c_fit := chk_ "check_array" ;; SetA "_is_fitted" (Tot "True" []);
  c_meths := [("transform",
    Fitted (Some ["_is_fitted"]) ;;
    Let "Xt" (May "check_array and columns" [X; Par "columns"]) ;;
    Return (Tot "reshape(len, -1)" [Loc "Xt"]))];
  c_public := [] |}.

(* mapper/cluster.py _build_tree 297-319: one tuple assignment after the calls
   that can raise *)
Definition build_tree : stmt :=
  Let "out" (May "tree_builder" [X; Par "linkage"; Par "affinity"; Par "memory"]) ;;
  SetA "children_" (Tot "out[0]" [Loc "out"]) ;;
  SetA "n_leaves_" (Tot "out[2]" [Loc "out"]) ;;
  SetA "distances_" (Tot "out[4]" [Loc "out"]).

(* mapper/cluster.py FirstSimpleGap.fit 438-458.  No method other than
   fit_predict, which is fit followed by the attribute labels_. *)
Definition FirstSimpleGap : cls := {|
  c_name := "FirstSimpleGap";
  c_fit :=
    chk "check_array" ;;
    validate ["linkage"; "affinity"; "relative_gap_size"; "max_fraction"] ;;
    If (Tot "X.shape[0] == 1" [X])
       (SetA "labels_" (Tot "np.array([0])" []) ;;
        SetA "n_clusters_" (Tot "1" []) ;;
        Return (Tot "self" []))
       (build_tree ;;
        Let "min_gap_size" (May "relative_gap_size * distances[-1]" [Par "relative_gap_size"; Att "distances_"]) ;;
        SetA "n_clusters_" (May "_num_clusters_simple" [Att "distances_"; Loc "min_gap_size"; Par "max_fraction"]) ;;
        SetA "labels_" (May "_hc_cut" [Att "n_clusters_"; Att "children_"; Att "n_leaves_"]));
  c_meths := [];
  c_public := ["n_clusters_"; "labels_"] |}.

(* mapper/cluster.py FirstHistogramGap.fit 592-612 *)
Definition FirstHistogramGap : cls := {|
  c_name := "FirstHistogramGap";
  c_fit :=
    chk "check_array" ;;
    validate ["linkage"; "affinity"; "freq_threshold"; "max_fraction"; "n_bins_start"] ;;
    If (Tot "X.shape[0] == 1" [X])
       (SetA "labels_" (Tot "np.array([0])" []) ;;
        SetA "n_clusters_" (Tot "1" []) ;;
        Return (Tot "self" []))
       (build_tree ;;
        SetA "n_clusters_" (May "_num_clusters_histogram" [Att "distances_"; Par "freq_threshold"; Par "n_bins_start"; Par "max_fraction"]) ;;
        SetA "labels_" (May "_hc_cut" [Att "n_clusters_"; Att "children_"; Att "n_leaves_"]));
  c_meths := [];
  c_public := ["n_clusters_"; "labels_"] |}.

(* mapper/cluster.py ParallelClustering.fit 136-181 with _validate_clusterer
   84-107, transform 236-239 *)
Definition ParallelClustering : cls := {|
  c_name := "ParallelClustering";
  c_fit :=
    Let "X_tot" (May "X[0]" [X]) ;;
    Let "masks" (May "X[1]" [X]) ;;
    Let "_" (May "check_array" [Loc "X_tot"]) ;;
    Let "_" (May "check_array" [Loc "masks"]) ;;
    guard (Tot "not np.issubdtype(masks.dtype, bool)" [Loc "masks"]) TypeError ;;
    guard (Tot "len(X_tot) != len(masks)" [Loc "X_tot"; Loc "masks"]) ValueError ;;
    guard (Tot "not isinstance(clusterer, ClusterMixin)" [Par "clusterer"]) TypeError ;;
    Let "precomputed" (Tot "precomputed" [Par "clusterer"]) ;;
    If (Tot "len > 1" [Loc "precomputed"])
       (Raise NotImplementedError)
       (SetA "_precomputed" (Tot "False or precomputed[0]" [Loc "precomputed"])) ;;
    SetA "_sample_weight_computer" (Tot "_sample_weight_computer or _empty_dict" [X; Par "clusterer"]) ;;
    SetA "_indices_computer" (Tot "_indices_computer" [Att "_precomputed"]) ;;
    SetA "labels_" (Tot "None" []) ;;
    Let "labels_single" (May "_labels_single" [Par "clusterer"; Loc "X_tot"; Loc "masks"; X; Att "_indices_computer"; Att "_sample_weight_computer"; Par "n_jobs"; Par "parallel_backend_prefer"]) ;;
    SetA "labels_" (Tot "np.empty" [Loc "X_tot"]) ;;
    For "i" (Tot "enumerate" [Loc "labels_single"])
        (SetA "labels_" (Tot "labels[rel_indices] += labels_i" [Att "labels_"; Loc "i"]));
  c_meths := [("transform", Raise NotImplementedError)];
  c_public := ["labels_"] |}.

Definition all_classes : list cls :=
  [StandardFeatures; Derivative; PairwiseDistance; PersistenceEntropy; Amplitude; NumberOfPoints;
   ComplexPolynomial; ForgetDimension; Scaler; Filtering; BettiCurve; PersistenceLandscape;
   HeatKernel; PersistenceImage; Silhouette; GraphGeodesicDistance; KNeighborsGraph;
   TransitionGraph; CubicalPersistence; VietorisRipsPersistence; WeightedRipsPersistence;
   SparseRipsPersistence; WeakAlphaPersistence; EuclideanCechPersistence; FlagserPersistence;
   HeightFiltration; RadialFiltration; DilationFiltration; ErosionFiltration;
   SignedDistanceFiltration; DensityFiltration; Binarizer; Inverter; Padder; ImageToPointCloud;
   ConsistentRescaling; ConsecutiveRescaling; SlidingWindow; SingleTakensEmbedding;
   TakensEmbedding; PermutationEntropy; PearsonDissimilarity; Resampler; Stationarizer; Labeller;
   Eccentricity; Entropy; Projection; FirstSimpleGap; FirstHistogramGap; ParallelClustering].
