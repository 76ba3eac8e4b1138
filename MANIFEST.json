{
 "claims": [
  {
   "property": "C01",
   "status": "proved",
   "theorems": [
    "sliding_window_transform_spec",
    "slice_windows_spec"
   ],
   "note": ""
  },
  {
   "property": "C02",
   "status": "proved",
   "theorems": [
    "sliding_window_alignment",
    "sliding_window_alignment_size2",
    "sliding_window_alignment_size1_refuted"
   ],
   "note": "exact law: aligned iff size>=2; at the admissible size=1 resample returns nothing (the unconditional alignment claim is refuted)"
  },
  {
   "property": "C03",
   "status": "proved",
   "theorems": [
    "takens_embedding_spec",
    "takens_collection_spec",
    "takens_flatten_spec"
   ],
   "note": ""
  },
  {
   "property": "C04",
   "status": "proved",
   "theorems": [
    "single_takens_alignment",
    "single_takens_alignment_dim2",
    "single_takens_alignment_dim1_refuted"
   ],
   "note": "exact law: aligned iff dimension>=2; at dimension=1 resample returns nothing (the unconditional alignment claim is refuted)"
  },
  {
   "property": "C05",
   "status": "proved",
   "theorems": [
    "labeller_alignment",
    "labeller_classification_alignment"
   ],
   "note": ""
  },
  {
   "property": "C06",
   "status": "proved",
   "theorems": [
    "labeller_classes",
    "labeller_classes_sorted",
    "labeller_empty_percentiles_refuted"
   ],
   "note": "finding: percentiles=[] raises IndexError"
  },
  {
   "property": "C07",
   "status": "proved",
   "theorems": [
    "resampler_alignment",
    "stationarizer_alignment"
   ],
   "note": ""
  },
  {
   "property": "C08",
   "status": "proved",
   "theorems": [
    "takens_search_spec",
    "takens_search_max_dimension_1_refuted"
   ],
   "note": "scores abstract; finding: max_dimension=1 always raises"
  },
  {
   "property": "C09",
   "status": "proved",
   "theorems": [
    "pearson_spec",
    "pearson_dissimilarity",
    "pearson_affine_invariant",
    "pearson_no_samples"
   ],
   "note": "Exact reals: np.corrcoef is modelled operation by operation (centring, products, the factor 1/(n-1), two divisions by standard deviations, clipping), rounding is not. Constant columns and single rows give NaN also on the diagonal."
  },
  {
   "property": "C10",
   "status": "proved",
   "theorems": [
    "permutation_entropy_spec",
    "permutation_entropy_reorder",
    "permutation_entropy_order",
    "permutation_entropy_increasing",
    "permutation_entropy_bounds",
    "stable_argsort_ok"
   ],
   "note": "np.argsort is any function which sorts and depends on comparisons only (stable_argsort_ok gives one)."
  },
  {
   "property": "C100",
   "status": "proved",
   "theorems": [
    "filtering_plot_shows",
    "scaler_plot_shows",
    "forget_plot_shows",
    "preprocessor_plot_errors",
    "preprocessor_plot_explicit",
    "plot_negative_sample"
   ],
   "note": "The collection given to Filtering.transform is balanced, as its documentation asks, and the requested dimensions are distinct."
  },
  {
   "property": "C101",
   "status": "proved",
   "theorems": [
    "image_plot_shows",
    "image_and_cloud_pictures_agree",
    "lower_origin_mirrors"
   ],
   "note": "How plotly places unlabelled heat map entries and reversed axes is part of the specification (PicSpec.v)."
  },
  {
   "property": "C11",
   "status": "proved",
   "theorems": [
    "postprocess_preserves_points",
    "postprocess_rows_of_dimension"
   ],
   "note": ""
  },
  {
   "property": "C12",
   "status": "proved",
   "theorems": [
    "postprocess_rectangular_valid"
   ],
   "note": "sortedness of the dimension blocks follows from the order of the requested dimensions, see postprocess_preserves_points"
  },
  {
   "property": "C13",
   "status": "proved",
   "theorems": [
    "postprocess_split_by_dimension",
    "subdiagrams_balanced_spec",
    "subdiagrams_mixes_samples_refuted",
    "subdiagrams_errors"
   ],
   "note": "finding: on other collections accepted by check_diagrams, extraction may mix samples"
  },
  {
   "property": "C14",
   "status": "proved",
   "theorems": [
    "weak_alpha_spec",
    "weak_alpha_isolated_spec",
    "weak_alpha_duplicate_refuted",
    "weak_alpha_last_isolated"
   ],
   "note": "Holds iff every point has a Delaunay neighbour; the exact (wrong) result with isolated points is characterised, refuted on duplicates, IndexError when the last point is isolated. Delaunay itself is an input in scipy's compressed format."
  },
  {
   "property": "C15",
   "status": "proved",
   "theorems": [
    "cubical_fit_spec",
    "periodic_dimensions_refuted",
    "cubical_arguments_spec",
    "cubical_spec"
   ],
   "note": "fit specified completely; the documented shape of periodic_dimensions_ is refuted. Pixels reach GUDHI in column-major order for any number of axes."
  },
  {
   "property": "C16",
   "status": "proved",
   "theorems": [
    "flagser_list_spec",
    "flagser_spec"
   ],
   "note": "For every answer length of flagser, end to end through post-processing."
  },
  {
   "property": "C17",
   "status": "proved",
   "theorems": [
    "filtering_spec",
    "filtering_fit_transform_spec",
    "filtering_rectangular",
    "filtering_never_grows_refuted"
   ],
   "note": "finding: the documented n_features_filtered <= n_features fails for absent dimensions"
  },
  {
   "property": "C18",
   "status": "proved",
   "theorems": [
    "scaler_round_trip",
    "scaler_bottleneck_scale",
    "scaler_max_lifetime_is_two"
   ],
   "note": "exact rational arithmetic with IEEE specials"
  },
  {
   "property": "C19",
   "status": "proved",
   "theorems": [
    "forget_dimension_spec",
    "forget_dimension_valid"
   ],
   "note": ""
  },
  {
   "property": "C20",
   "status": "proved",
   "theorems": [
    "betti_curve_spec",
    "betti_curve_ignores_diagonal"
   ],
   "note": "Over exact rationals and finite points; fit then transform, every n_jobs >= 1."
  },
  {
   "property": "C21",
   "status": "proved",
   "theorems": [
    "persistence_landscape_spec",
    "landscape_layers_decreasing",
    "persistence_landscape_ignores_diagonal"
   ],
   "note": "numpy's partition is any function meeting is_partition (partition_exists shows one)."
  },
  {
   "property": "C22",
   "status": "proved",
   "theorems": [
    "silhouette_spec",
    "silhouette_bounds",
    "silhouette_trivial",
    "silhouette_ignores_diagonal",
    "silhouette_trivial_refuted"
   ],
   "note": "Exact reals. Finding: for power > 8 a subdiagram without off-diagonal points gives NaN instead of 0 (silhouette_trivial_refuted); the other theorems exclude that case by defined_on."
  },
  {
   "property": "C23",
   "status": "proved",
   "theorems": [
    "heat_kernel_spec",
    "heat_antisymmetric",
    "heat_kernel_ignores_diagonal"
   ],
   "note": "gaussian_filter is any shape-preserving function. n_bins = 1 (NaN step) is outside."
  },
  {
   "property": "C24",
   "status": "proved",
   "theorems": [
    "amplitude_spec",
    "amplitude_is_distance_to_trivial",
    "amplitude_is_optimal_matching",
    "amplitude_bounds_point_distance",
    "amplitude_ignores_diagonal",
    "bottleneck_amplitude_no_points"
   ],
   "note": "Bottleneck/Wasserstein: the amplitude is the exact optimal matching cost; the compiled distance algorithms are external with relative accuracy delta. Finding: bottleneck amplitude raises ValueError when a fitted dimension has no point at all."
  },
  {
   "property": "C25",
   "status": "proved",
   "theorems": [
    "pairwise_distance_spec",
    "pairwise_distance_pseudo_metric",
    "pairwise_distance_order_pseudo_metric",
    "pairwise_distance_order_triangle_refuted",
    "pairwise_point_distance_spec"
   ],
   "note": "For p >= 1 and order >= 1. Finding: order < 1 is accepted and breaks the triangle inequality."
  },
  {
   "property": "C26",
   "status": "proved",
   "theorems": [
    "parallel_loop_spec",
    "pairwise_distance_jobs",
    "amplitude_ignores_diagonal",
    "silhouette_ignores_diagonal",
    "betti_curve_ignores_diagonal",
    "persistence_landscape_ignores_diagonal",
    "heat_kernel_ignores_diagonal",
    "persistence_image_ignores_diagonal_partial",
    "persistence_entropy_ignores_diagonal",
    "number_of_points_ignores_diagonal",
    "image_jobs"
   ],
   "note": "The *_ignores_diagonal theorems compare results for two arbitrary numbers of jobs; image_jobs covers all image transformers."
  },
  {
   "property": "C27",
   "status": "proved",
   "theorems": [
    "persistence_entropy_spec",
    "entropy_bounds",
    "persistence_entropy_scale_invariant",
    "persistence_entropy_ignores_diagonal",
    "normalized_entropy_nonnegative_refuted"
   ],
   "note": "Exact reals. Findings: a subdiagram without any point (not even diagonal ones) gives 0 instead of nan_fill_value; with normalize=True the value is negative when the total lifetime is below 1 (normalized_entropy_nonnegative_refuted)."
  },
  {
   "property": "C28",
   "status": "proved",
   "theorems": [
    "number_of_points_spec",
    "number_of_points_ignores_diagonal"
   ],
   "note": ""
  },
  {
   "property": "C29",
   "status": "proved",
   "theorems": [
    "complex_polynomial_spec",
    "polynomial_vanishes_at_roots",
    "complex_polynomial_ignores_diagonal",
    "complex_polynomial_total_refuted"
   ],
   "note": "Exact reals. Findings: transform raises TypeError when a subdiagram has no off-diagonal point (complex_polynomial_total_refuted); n_coefficients=None counts the diagonal points of the first training diagram too (visible in coefficient_counts)."
  },
  {
   "property": "C30",
   "status": "proved",
   "theorems": [
    "bin_spec",
    "bin_persistence_image_spec",
    "grid_covers_training_values",
    "single_bin_step_undefined"
   ],
   "note": "When all values of a dimension agree the upper end is the greatest value over all dimensions (part of is_range). Finding: n_bins = 1 is accepted and gives a NaN step."
  },
  {
   "property": "C31",
   "status": "proved",
   "theorems": [
    "betti_curve_ignores_diagonal",
    "persistence_landscape_ignores_diagonal",
    "silhouette_ignores_diagonal",
    "heat_kernel_ignores_diagonal",
    "amplitude_ignores_diagonal",
    "persistence_entropy_ignores_diagonal",
    "number_of_points_ignores_diagonal",
    "complex_polynomial_ignores_diagonal",
    "persistence_image_ignores_diagonal_partial",
    "persistence_image_ignores_diagonal_refuted"
   ],
   "note": "Finding: persistence images (not in the list) count diagonal points unless a training lifetime was 0. Padding an entirely empty subdiagram changes PersistenceEntropy from 0 to nan_fill_value, hence the side condition there."
  },
  {
   "property": "C32",
   "status": "proved",
   "theorems": [
    "dilation_filtration_spec",
    "dilation_filtration_exact"
   ],
   "note": "Binary images of 1 to 3 dimensions, any number of jobs."
  },
  {
   "property": "C33",
   "status": "proved",
   "theorems": [
    "erosion_filtration_spec",
    "erosion_is_dual"
   ],
   "note": ""
  },
  {
   "property": "C34",
   "status": "proved",
   "theorems": [
    "signed_distance_filtration_spec",
    "signed_distance_sign"
   ],
   "note": ""
  },
  {
   "property": "C35",
   "status": "proved",
   "theorems": [
    "height_filtration_spec",
    "height_properties",
    "height_1d_refuted",
    "image_dimensions_refused",
    "height_outside_refused"
   ],
   "note": "Exact reals, 2-D and 3-D images, non-zero directions. Finding: 1-D images pass the dimension check and raise IndexError."
  },
  {
   "property": "C36",
   "status": "proved",
   "theorems": [
    "radial_filtration_spec",
    "radial_1d_refuted",
    "image_dimensions_refused",
    "nonpositive_radius_refused"
   ],
   "note": "Exact reals, binary images, non-negative metrics. Finding: 1-D images raise IndexError."
  },
  {
   "property": "C37",
   "status": "proved",
   "theorems": [
    "density_filtration_spec",
    "density_counts",
    "minkowski_proper",
    "density_1d_refuted",
    "density_infinite_radius_refuted",
    "image_dimensions_refused",
    "nonpositive_radius_refused"
   ],
   "note": "For translation invariant metrics whose ball fits the cube of the code, which includes all Minkowski metrics. Findings: 1-D images and radius=inf are admissible but raise ValueError."
  },
  {
   "property": "C38",
   "status": "proved",
   "theorems": [
    "binarizer_spec",
    "binarizer_monotone",
    "binarizer_monotone_refuted",
    "inverter_spec",
    "inverter_false_refuted",
    "padder_spec",
    "padder_errors",
    "inverter_mixed",
    "image_dimensions_refused"
   ],
   "note": "Exact rationals. Findings: Binarizer reverses the order when every training pixel is negative; Inverter(max_value=False) is admissible but raises TypeError on boolean images."
  },
  {
   "property": "C39",
   "status": "proved",
   "theorems": [
    "image_to_point_cloud_spec",
    "pixels_to_points_injective",
    "point_cloud_needs_two_axes"
   ],
   "note": "2-D and 3-D images (1-D images fail in np.swapaxes)."
  },
  {
   "property": "C40",
   "status": "proved",
   "theorems": [
    "uniform_cover_spec",
    "cover_rejects"
   ],
   "note": "Exact rationals. Covers the line, evenly spaced limits, all rejected inputs."
  },
  {
   "property": "C41",
   "status": "proved",
   "theorems": [
    "cover_masks_spec",
    "cover_transform_unfitted"
   ],
   "note": "Both kinds of cover, any data for transform."
  },
  {
   "property": "C42",
   "status": "proved",
   "theorems": [
    "cover_fit_transform_same",
    "balanced_cover_spec",
    "balanced_fit_transform_spec",
    "balanced_fit_transform_not_fitted",
    "uniform_fit_transform_fitted",
    "balanced_right_end_refuted"
   ],
   "note": "Equality also of exceptions and for any previous state. Findings: fit_transform leaves stale limits; documented right end refuted for many intervals."
  },
  {
   "property": "C43",
   "status": "proved",
   "theorems": [
    "cubical_cover_spec",
    "cubical_dimension_check",
    "cubical_fit_transform_same",
    "cubical_balanced_transform_after_fit_transform"
   ],
   "note": "Any number of columns. Finding: after a balanced fit_transform, transform raises NotFittedError."
  },
  {
   "property": "C44",
   "status": "proved",
   "theorems": [
    "parallel_clustering_spec",
    "parallel_clustering_schedule",
    "parallel_clustering_failure",
    "parallel_clustering_rejects",
    "parallel_clustering_broadcast",
    "parallel_clustering_wrong_number"
   ],
   "note": "Any clusterer, weights, precomputed or not; any execution order of the tasks. Cloning of the clusterer and check_array on entries not modelled."
  },
  {
   "property": "C45",
   "status": "proved",
   "theorems": [
    "nerve_spec",
    "nerve_refined_spec",
    "nerve_empty"
   ],
   "note": "Full description of nodes, attributes, order and edges. igraph is modelled as vertex and edge lists."
  },
  {
   "property": "C46",
   "status": "proved",
   "theorems": [
    "nerve_contract_spec",
    "contract_keeps_samples_refuted",
    "contract_no_loops_refuted"
   ],
   "note": "Termination, representatives and edges proved; the documented claim that maximal clusters are kept is refuted: the attributes of the first merged node survive, so samples can vanish, and self-loops can remain."
  },
  {
   "property": "C47",
   "status": "proved",
   "theorems": [
    "mapper_no_sample_lost"
   ],
   "note": "One filter column with OneDimensionalCover, contract_nodes=False; any clusterer that labels all its samples."
  },
  {
   "property": "C48",
   "status": "proved",
   "theorems": [
    "first_simple_gap_spec",
    "first_simple_gap_bounds",
    "first_gap_single",
    "first_simple_gap_positive_refuted",
    "first_simple_gap_identical",
    "first_histogram_gap_spec",
    "first_histogram_gap_two",
    "first_histogram_gap_bounds",
    "first_histogram_gap_positive_refuted"
   ],
   "note": "Exact description of n_clusters_ for any merge heights; the search for an empty bin ends. The lower bound 1 fails when max_fraction*n_samples < 1 (refuted). The linkage tree and the tree cut (scikit-learn) are not modelled."
  },
  {
   "property": "C49",
   "status": "proved",
   "theorems": [
    "mapper_set_params_spec",
    "get_mapper_params_spec",
    "n_jobs_not_reported",
    "get_mapper_params_shallow",
    "set_then_get",
    "unknown_name_error",
    "make_mapper_pipeline_spec"
   ],
   "note": "scikit-learn's get_params/set_params modelled as external recursion over a tree of parameters. Findings: n_jobs is never reported by get_mapper_params; deep=False reports only memory and verbose."
  },
  {
   "property": "C50",
   "status": "proved",
   "theorems": [
    "interval_init_spec",
    "interval_init_error",
    "interval_contains_spec",
    "interval_contains_rejects",
    "interval_is_empty_spec",
    "interval_intersects_spec",
    "interval_intersects_empty_refuted",
    "interval_add_spec",
    "interval_sub_spec",
    "interval_sub_add",
    "interval_mul_spec",
    "interval_mul_negative",
    "interval_mul_zero",
    "interval_truediv_spec",
    "interval_div_zero",
    "interval_floordiv_spec",
    "interval_left_operand_refuted",
    "interval_pickle_refuted",
    "interval_mid_length",
    "interval_operand_errors",
    "interval_floordiv_infinite"
   ],
   "note": "Extended reals without rounding. intersects is true for an empty interval inside another one (refuted); number + interval and pickling/copying raise TypeError; scaling by a negative number raises."
  },
  {
   "property": "C51",
   "status": "proved",
   "theorems": [
    "validate_params_spec",
    "validate_params_error",
    "validate_nested_refuted",
    "validate_dict_keys_refuted"
   ],
   "note": "Acceptance and the exact exception, for all values and all references written as documented. The 'of' of an item reference is ignored and dictionaries with a tuple of types have their keys checked (refuted variants)."
  },
  {
   "property": "C52",
   "status": "proved",
   "theorems": [
    "check_diagrams_spec",
    "check_diagrams_exceptions",
    "check_diagrams_all_dimensions_refuted"
   ],
   "note": "exact acceptance condition and exact exception kinds; the claim that the dimensions of all samples are checked is refuted"
  },
  {
   "property": "C53",
   "status": "proved",
   "theorems": [
    "pipe_transform_resample_spec",
    "pipe_transform_spec",
    "pipe_predict_spec",
    "pipe_score_spec",
    "no_final_estimator",
    "missing_method",
    "pipe_aligned",
    "pipe_resample_spec",
    "pipe_resample_ignores_argument",
    "pipe_resample_refuted",
    "pipe_inverse_transform_spec",
    "pipe_inverse_transform_refuted",
    "pipe_fit_spec",
    "fit_transform_resample_consistent",
    "fit_transform_resample_none",
    "fit_transform_consistent",
    "pipe_fit_predict_spec",
    "fit_then_score",
    "fit_transform_resample_aligned",
    "mixin_lawful",
    "make_pipeline_spec",
    "malformed_pipeline_refused",
    "unnamed_parameter_refused"
   ],
   "note": "Estimators are arbitrary objects with arbitrary methods; the fitting theorems assume the usual laws (fit_transform = fit then transform, ...), proved for TransformerResamplerMixin. Findings: Pipeline.resample(y) ignores y; inverse_transform passes a second argument to each step; fit_transform_resample returns None when the last step has no fit_transform."
  },
  {
   "property": "C54",
   "status": "proved",
   "theorems": [
    "transition_graph_spec",
    "transition_graph_transform_spec",
    "transitions_positive",
    "transition_graph_reverse",
    "func_params_ignored",
    "transition_graph_symmetric_refuted",
    "transition_graph_binary_refuted",
    "transition_graph_errors"
   ],
   "note": "Exact functional specification of the matrix (entries count transitions). Findings: not symmetric, entries larger than 1, func_params never passed to func."
  },
  {
   "property": "C55",
   "status": "proved",
   "theorems": [
    "consistent_rescaling_spec",
    "consistent_rescaling_rank_error",
    "consistent_transform_spec",
    "rescaled_symmetric",
    "rescaled_formula",
    "consistent_scale_invariant",
    "consistent_relabel",
    "consecutive_transform_spec",
    "consecutive_integer_error",
    "consecutive_symmetric_refuted"
   ],
   "note": "Any sorting np.argsort, any pairwise distances. r_i is the neighbor_rank-th smallest entry (the documentation says largest). Findings: coinciding points give non-finite entries; neighbor_rank >= n_points is an IndexError; ConsecutiveRescaling leaves (i+1,i) alone, so the result is not symmetric, and is a TypeError on integer distance matrices with a float factor."
  },
  {
   "property": "C56",
   "status": "proved",
   "theorems": [
    "derivative_fit_spec",
    "derivative_spec",
    "derivative_empty"
   ],
   "note": "Curves over exact rationals, any order, shapes and number of jobs. transform does not check the length: curves not longer than the order give empty channels."
  },
  {
   "property": "C57",
   "status": "proved",
   "theorems": [
    "features_fit_spec",
    "features_spec",
    "features_any_sizes",
    "identity_in_list",
    "other_channels",
    "features_fit_errors",
    "identity_first"
   ],
   "note": "Functions are arbitrary (they may fail), numpy's reductions external. The rows are right whenever a channel's function returns equally many values for all samples (features_spec); features_any_sizes describes the output in general, and ragged_misaligned shows values of one sample landing in the row of another. Findings: 'identity' in a list of functions always fails; None as parameters of a named function is an AttributeError; weights=None a TypeError though documented."
  },
  {
   "property": "C58",
   "status": "proved",
   "theorems": [
    "coned_matrix_spec",
    "coned_matrix_symmetric",
    "radius_spec",
    "radius_fit_spec",
    "kneighbors_fit_spec",
    "kneighbors_spec",
    "kneighbors_general",
    "local_unfitted",
    "radius_fit_error"
   ],
   "note": "sklearn's neighbour searches and ripser are external; the order of Python sets is arbitrary. End to end: each point gives the documented cone matrix, all are accepted by check_point_clouds and handed to VietorisRipsPersistence (C62). For KNeighbors the documented neighbourhoods need distances without ties (kneighbors_spec); kneighbors_general and the example ties describe the rest. Findings: radii=(0,0) keeps radius 0 although a warning says 1 is used and the attribute radii is changed; radii=(0,-1) is accepted; n_neighbors=(0,0) is an AttributeError; one training point is a ValueError."
  },
  {
   "property": "C59",
   "status": "proved",
   "theorems": [
    "radius_refit",
    "radius_set_params_ignored",
    "kneighbors_history",
    "kneighbors_refit",
    "kneighbors_refit_refuted",
    "set_params_refuted",
    "set_params_then_clone",
    "second_radius_refuted",
    "cover_history",
    "uniform_history",
    "balanced_history_refuted"
   ],
   "note": "State machines of the three classes. Findings: set_params has no effect on the neighbourhoods of the local homology transformers (so neither has a grid search over a fitted or unfitted estimator without clone), fits on few points shrink n_neighbors for good, and balanced covers keep stale limits after fit_transform."
  },
  {
   "property": "C60",
   "status": "proved",
   "theorems": [
    "collection_transformer_spec",
    "finish_spec",
    "collection_transformer_unusable",
    "collection_transformer_empty",
    "items_dense",
    "list_union_transform_spec",
    "list_union_fit_transform_spec",
    "list_union_none"
   ],
   "note": "Tasks are interleavings of dispatch (clone of the shared transformer) and run events over a heap of objects; the transformer's fit_transform is an arbitrary state-changing function. scikit-learn's clone and FeatureUnion internals are external. Findings: transformers without get_params are accepted with a warning about limited functionality but every call fails; an empty list is an IndexError; without fit_transform the method is missing; y is ignored."
  },
  {
   "property": "C61",
   "status": "proved",
   "theorems": [
    "check_point_clouds_array",
    "check_point_clouds_list",
    "check_point_clouds_empty",
    "check_point_clouds_nested",
    "check_point_clouds_sparse_square_refuted",
    "check_collection_list"
   ],
   "note": "check_array (scikit-learn) is modelled for the arguments used. Empty list: IndexError; nested lists: never accepted; non-square sparse distance matrices accepted."
  },
  {
   "property": "C62",
   "status": "proved",
   "theorems": [
    "vietoris_rips_spec",
    "gudhi_spec",
    "flagser_spec",
    "cubical_spec",
    "diagrams_sample_independent",
    "no_homology_dimensions",
    "repeated_dimension_refuted"
   ],
   "note": "ripser is assumed to return one list per dimension 0..maxdim; GUDHI and flagser are arbitrary."
  },
  {
   "property": "C63",
   "status": "proved",
   "theorems": [
    "geodesic_graph_spec",
    "geodesic_method_spec",
    "geodesic_transform_spec",
    "geodesic_transform_empty"
   ],
   "note": "scipy's shortest_path is external: assumed right on the graphs and methods it supports (stated in the theorem)."
  },
  {
   "property": "C64",
   "status": "proved",
   "theorems": [
    "filters_reject",
    "eccentricity_spec",
    "eccentricity_metric",
    "eccentricity_precomputed",
    "eccentricity_points_and_matrix",
    "eccentricity_order",
    "eccentricity_negative",
    "order_norm_unique",
    "order_norm_perm",
    "entropy_filter_spec",
    "entropy_filter_range",
    "entropy_filter_scale",
    "entropy_filter_zero_row",
    "projection_spec",
    "projection_out_of_range",
    "projection_frame_spec",
    "projection_frame_exceptions",
    "projection_frame_fit_spec",
    "projection_frame_other_columns_refuted",
    "projection_frame_index_refuted"
   ],
   "note": "distances taken to be finite; the metric is any function; refuted: that columns of a frame are indices, that unselected columns need not be valid"
  },
  {
   "property": "C65",
   "status": "proved",
   "theorems": [
    "callable_rows",
    "callable_rows_exact",
    "callable_rows_one_type",
    "callable_rows_fail",
    "callable_axis",
    "callable_none",
    "callable_invalid",
    "callable_rows_refuted",
    "stored_exact",
    "method_to_transform_spec",
    "method_to_transform_fit",
    "method_to_transform_missing",
    "method_to_transform_fit_refuted",
    "callable_row_lengths"
   ],
   "note": "results of callables with more than one axis are not modelled; refuted: that values are always kept, that fit_transform is always fit then transform"
  },
  {
   "property": "C66",
   "status": "proved",
   "theorems": [
    "false_neighbors_short",
    "false_neighbors_spec",
    "false_neighbors_range",
    "false_neighbors_affine",
    "nearest_affine",
    "counts_unique",
    "false_neighbors_textbook_refuted"
   ],
   "note": "nearest neighbours (scikit-learn) are any function giving a distance and an index per vector; exact real numbers; refuted: the textbook criterion"
  },
  {
   "property": "C67",
   "status": "proved",
   "theorems": [
    "mutual_information_spec",
    "mutual_information_joint",
    "mutual_information_nonneg",
    "mutual_information_zero",
    "mutual_information_pos",
    "mutual_information_constant",
    "mutual_information_degenerate",
    "mutual_information_affine",
    "mutual_information_reverse",
    "information_nonneg",
    "information_zero",
    "takens_search_full",
    "takens_search_long_delay_refuted"
   ],
   "note": "numpy.histogram2d and sklearn.metrics.mutual_info_score are written out over exact real numbers; refuted: that the search succeeds for any max_time_delay"
  },
  {
   "property": "C68",
   "status": "proved",
   "theorems": [
    "plot_diagram_spec",
    "plot_diagram_inside",
    "plot_diagram_infinite_apart",
    "plot_diagram_infinite_apart_refuted",
    "plot_diagram_ignores_padding"
   ],
   "note": "figures are modelled by the data handed to plotly (coordinates, names, hover texts, ranges); exact rational arithmetic; refuted: infinite deaths are always drawn apart"
  },
  {
   "property": "C69",
   "status": "proved",
   "theorems": [
    "transform_plot_spec",
    "transform_plot_sample_wise",
    "transform_plot_last_refuted",
    "transform_plot_out_of_range",
    "homology_plot_sample_independent",
    "homology_diagrams_drawable",
    "homology_transform_plot"
   ],
   "note": "refuted: index -1 is accepted"
  },
  {
   "property": "C70",
   "status": "proved",
   "theorems": [
    "fitted_grids_unique",
    "fitted_grids2_unique",
    "betti_curve_plot_spec",
    "silhouette_plot_spec",
    "landscape_plot_spec",
    "plot_unknown_dimension",
    "heat_kernel_plot_spec",
    "persistence_image_plot_spec",
    "plot_heatmap_spec"
   ],
   "note": "the Gaussian filter is any shape-preserving function, as in C23"
  },
  {
   "property": "C71",
   "status": "proved",
   "theorems": [
    "plot_point_cloud_spec",
    "plot_point_cloud_errors",
    "derivative_plot_spec",
    "derivative_plot_abscissae_refuted",
    "derivative_plot_channels_refuted",
    "derivative_plot_channels_initial",
    "derivative_plot_too_many",
    "plot_betti_curves_spec",
    "plot_betti_curves_missing",
    "plot_betti_surfaces_spec",
    "plot_betti_surfaces_single",
    "plot_betti_surfaces_default"
   ],
   "note": "refuted: as many abscissae as values; a named channel is the one drawn"
  },
  {
   "property": "C72",
   "status": "proved",
   "theorems": [
    "round_shows",
    "shows_unique",
    "sig_rounded_error",
    "shows_again",
    "static_plot_spec",
    "static_plot_default",
    "default_colors_exist",
    "static_plot_array",
    "static_menu_alone",
    "static_menu_history",
    "static_plot_constant_column",
    "static_plot_errors",
    "nerve_graph_proper",
    "mapper_plot_default",
    "static_menu_first_refuted",
    "array_ignores_features_refuted",
    "static_mask_refuted",
    "static_plot_empty_graph",
    "static_plot_selections",
    "replace_without_blank"
   ],
   "note": "layout algorithm, statistic and number formatting are arbitrary (formatting without blanks); exact rationals; in three dimensions a constant column after a varying first one is refused, the first menu entry does not restore label colours, and color_features is not ignored for array statistics (refuted against the documentation); a boolean mask as color_features of an array gives menu entries called True, or an IndexError when columns are dropped (refuted)"
  },
  {
   "property": "C73",
   "status": "proved",
   "theorems": [
    "hex_to_rgb_spec",
    "rgb_to_hex_spec",
    "hex_round_trip",
    "colors_for_vals_spec",
    "colors_increasing",
    "hex_valid",
    "hex_colors_spec",
    "colors_extremes",
    "colors_monotone",
    "colors_affine",
    "colors_decreasing",
    "colors_errors",
    "hex_opacity_ignored"
   ],
   "note": "exact rational arithmetic; valid_stops requires channels within 0..255"
  },
  {
   "property": "C74",
   "status": "proved",
   "theorems": [
    "interactive_params",
    "interactive_static",
    "interactive_summaries",
    "interactive_valid",
    "interactive_history_independent",
    "interactive_rejected",
    "interactive_array",
    "interactive_shows",
    "interactive_constant_refuted",
    "interactive_white_refuted",
    "interactive_min_intersection_refuted",
    "interactive_menu_refuted"
   ],
   "note": "the pipeline is an arbitrary function of its parameters, so results of fit_transform are assumed to depend on them only; whether plotly keeps half of a failed batch update is a parameter. Refuted: constant colours in three dimensions reject a change a static plot accepts (graph_ is then not the graph in the figure); white labels of a constant first plot stay white; a float min_intersection has a widget without effect; a rejected change may leave the old menu with new nodes"
  },
  {
   "property": "C75",
   "status": "proved",
   "theorems": [
    "kng_spec",
    "kng_refuses",
    "kng_fit_stateless",
    "kng_unfitted",
    "kng_fit_list",
    "kng_isometry",
    "kng_geodesic",
    "knn_few_closer",
    "knn_joined",
    "knn_distinct",
    "knn_relabel",
    "kng_diagonal_refuted",
    "kng_infinite_refuted",
    "negative_distances_refused"
   ],
   "note": "sklearn's search is any function finding k smallest entries of a row of distances; its removal of the point itself is modelled, sparse inputs are external; each point must be at least as close to itself as to the others: otherwise (distance matrices with a non-zero diagonal) the nearest neighbour may be dropped (refuted)"
  },
  {
   "property": "C76",
   "status": "proved",
   "theorems": [
    "hc_cut_spec",
    "hc_cut_nested",
    "simple_gap_fit",
    "histogram_gap_fit",
    "histogram_gap_fit_two",
    "gap_fit_refuses",
    "gap_fit_predict",
    "simple_gap_single",
    "histogram_gap_single",
    "single_linkage_heights",
    "simple_gap_single_unique",
    "simple_gap_identical",
    "single_sample_stale_refuted",
    "simple_gap_ties_refuted",
    "zero_clusters_refuted",
    "hc_cut_too_many"
   ],
   "note": "scikit-learn's tree builders are external (any tree of merges; for single linkage any dendrogram whose merges join nearest clusters), its cut is modelled over any heap meeting the contract of heapq; a fit on a single sample leaves children_, n_leaves_ and distances_ of an earlier fit (refuted); with max_fraction < 1 ties may decide the clusters and n_clusters_ may be 0 (refuted); identical samples all get different labels"
  },
  {
   "property": "C77",
   "status": "proved",
   "theorems": [
    "flow_lawful",
    "time_series_pipeline_spec",
    "time_series_fit_transform_resample",
    "window_features_independent",
    "time_series_pipeline_errors",
    "time_series_fit_labels",
    "flow_cannot_predict"
   ],
   "note": "n_jobs >= 1; window size 1 is excluded because SlidingWindow then drops all labels (C02, refuted there); the backend's diagrams must become finite numbers once infinity is replaced"
  },
  {
   "property": "C78",
   "status": "proved",
   "theorems": [
    "matching_distance_exists",
    "landscape_layer_stable",
    "persistence_landscape_stable",
    "landscape_distance_stable",
    "landscape_below_point_distance",
    "landscape_amplitude_below_point_amplitude",
    "exact_algorithm_exists"
   ],
   "note": "exact arithmetic; the point distance algorithms are external and assumed not to underestimate optimal matchings (an exact one is constructed)"
  },
  {
   "property": "C79",
   "status": "proved",
   "theorems": [
    "betti_curve_affine",
    "persistence_landscape_affine",
    "silhouette_affine",
    "heat_kernel_affine",
    "persistence_image_affine",
    "amplitude_affine",
    "pairwise_distance_affine",
    "matching_distance_affine",
    "point_distance_affine"
   ],
   "note": "exact arithmetic; bottleneck and Wasserstein distances for exact matching algorithms"
  },
  {
   "property": "C80",
   "status": "proved",
   "theorems": [
    "scaler_fit_spec",
    "scaler_function_none",
    "scaler_real_round_trip",
    "scaler_degenerate",
    "scaler_zero_scale",
    "scaler_units",
    "scaler_unit_free",
    "scaler_refit",
    "scaler_landscape_refit"
   ],
   "note": "exact arithmetic over the reals; findings: function=None passes validation and fit raises TypeError; with a landscape metric and finite p the scaled diagrams have greatest amplitude s^(-1/p), not 1"
  },
  {
   "property": "C81",
   "status": "proved",
   "theorems": [
    "cubical_construction",
    "periodic_construction",
    "cubical_history",
    "cubical_delete",
    "cubical_undefined",
    "intervals_array_refuted",
    "simplex_tree_forwards",
    "questions_are_pure",
    "not_computed",
    "computed_from_latest",
    "failed_recomputation_refuted",
    "lost_computation_iff",
    "rips_sources",
    "created_tree",
    "witness_tree",
    "sample_diagrams",
    "missing_file_message",
    "not_computed_messages"
   ],
   "note": "the compiled GUDHI modules are arbitrary libraries; findings: interval arrays are not two-dimensional when empty; a failed recomputation makes SimplexTree.persistence unusable for ever"
  },
  {
   "property": "C82",
   "status": "proved",
   "theorems": [
    "matching_distance_triangle",
    "matching_distance_symmetric",
    "matching_distance_zero",
    "matching_distance_exponent",
    "point_distance_near_metric",
    "point_distance_pseudo_metric",
    "point_distance_exponent"
   ],
   "note": "the compiled matching algorithms are arbitrary functions within a factor 1 + delta of the optimal matching cost"
  },
  {
   "property": "C83",
   "status": "proved",
   "theorems": [
    "memory_transparent",
    "fitting_refines",
    "fitting_isolated",
    "failed_fit",
    "memory_optional",
    "shared_step_refuted",
    "shared_pipeline_refuted",
    "failed_fit_refuted"
   ],
   "note": "joblib's hashes are assumed to distinguish different arguments; estimators are deterministic functions of their state and arguments (a random estimator is not refitted by a cached pipeline). The refutations are findings: shared estimators without memory, and failed fits are not undone"
  },
  {
   "property": "C84",
   "status": "proved",
   "theorems": [
    "scaler_rounding",
    "scaler_roundtrip_rounding",
    "filtering_rounding",
    "fiber_rounding",
    "grid_rounding",
    "grid_accuracy",
    "grid_subnormal_refuted",
    "grid_pair_formula"
   ],
   "note": "no overflow; the sampling theorem needs bins of a normal (not subnormal) width, and grid_subnormal_refuted shows that it fails otherwise (finding)"
  },
  {
   "property": "C85",
   "status": "proved",
   "theorems": [
    "cover_limits_rounding",
    "uniform_cover_rounding",
    "balanced_cover_rounding",
    "uniform_cover_refuted"
   ],
   "note": "no overflow; uniform_cover_refuted (finding): data near 2^53 are lost from the cover"
  },
  {
   "property": "C86",
   "status": "proved",
   "theorems": [
    "mapper_order_independent",
    "cover_units",
    "mapper_units",
    "cubical_cover_units",
    "mapper_order_contract_refuted",
    "uniform_cover_increasing_refuted"
   ],
   "note": "order independence for contract_nodes=False; with contract_nodes=True it is false (mapper_order_contract_refuted, a finding); a uniform cover is not invariant under increasing maps that are not affine (uniform_cover_increasing_refuted)"
  },
  {
   "property": "C87",
   "status": "proved",
   "theorems": [
    "fit_forgets_the_past",
    "stale_tree_refuted",
    "classes_covered"
   ],
   "note": "the tree attributes children_, n_leaves_, distances_ of the two gap clusterers are not renewed by a fit on a single sample (stale_tree_refuted, a finding); they are left out of the documented attributes of these two classes"
  },
  {
   "property": "C88",
   "status": "proved",
   "theorems": [
    "failed_fit_is_invisible",
    "failed_fit_is_invisible_same_params",
    "failed_fit_is_invisible_refuted",
    "failed_fit_with_other_params_refuted",
    "diagrams_spoilt",
    "metric_spoilt"
   ],
   "note": "false for 12 classes (failed_fit_is_invisible_refuted, a finding), each with a concrete history"
  },
  {
   "property": "C89",
   "status": "proved",
   "theorems": [
    "unfitted_methods_raise_not_fitted",
    "fitted_object_is_usable",
    "not_fitted_image_to_point_cloud_refuted",
    "not_fitted_filtrations_refuted"
   ],
   "note": "NotFittedError is not what the image transformers raise after a failed fit (two _refuted theorems, a finding)"
  },
  {
   "property": "C90",
   "status": "proved",
   "theorems": [
    "batches_can_be_split",
    "rows_are_single_outputs",
    "rows_follow_samples",
    "batches_can_be_split_or_raise",
    "rows_are_single_outputs_or_raise",
    "curves_and_images_sample_by_sample",
    "features_sample_by_sample",
    "metrics_sample_by_sample",
    "images_sample_by_sample",
    "inverter_sample_by_sample",
    "series_and_graphs_sample_by_sample",
    "filters_sample_by_sample",
    "filtering_sample_by_sample_refuted",
    "eccentricity_sample_by_sample_refuted"
   ],
   "note": "false for Filtering and for Eccentricity of points (the two _refuted theorems)"
  },
  {
   "property": "C91",
   "status": "proved",
   "theorems": [
    "reflection_is_symmetry",
    "axis_permutation_is_symmetry",
    "distance_filtrations_symmetric",
    "height_filtration_symmetric",
    "height_reflected",
    "height_axes_permuted",
    "radial_filtration_symmetric",
    "density_filtration_symmetric",
    "minkowski_reflection",
    "minkowski_axis_permutation",
    "distance_filtrations_monotone",
    "density_filtration_monotone",
    "height_filtration_monotone",
    "radial_filtration_monotone",
    "neighbours_differ_by_one"
   ],
   "note": ""
  },
  {
   "property": "C92",
   "status": "proved",
   "theorems": [
    "amplitude_lipschitz",
    "amplitude_order_lipschitz"
   ],
   "note": ""
  },
  {
   "property": "C93",
   "status": "partial",
   "theorems": [
    "constructor_stores_its_arguments",
    "documented_parameters",
    "documented_defaults",
    "documented_defaults_refuted",
    "get_params_returns_the_parameters",
    "set_params_overwrites",
    "clone_keeps_exactly_the_parameters",
    "local_homology_set_params_refuted",
    "methods_leave_the_parameters_alone"
   ],
   "note": "Everything is proved but two parts which are false of the code. Five defaults differ from the documentation (documented_defaults_refuted): GraphGeodesicDistance.directed, RadialFiltration.radius, DensityFiltration.radius, KNeighborsLocalVietorisRips.n_neighbors and RadiusLocalVietorisRips.radii. The local homology classes keep a copy of their parameter that set_params does not reach (local_homology_set_params_refuted). sklearn's get_params, set_params and clone are modelled for parameters that are not estimators."
  },
  {
   "property": "C94",
   "status": "proved",
   "theorems": [
    "features_ignore_row_order",
    "cubical_diagrams_symmetric",
    "image_features_symmetric",
    "image_pipeline_symmetric"
   ],
   "note": "GUDHI is a universally quantified function; the theorems assume that it gives the same classes for an image and the moved image (same first class in each dimension, the others in any order) and, for the features, that births and deaths are pixels or infinite. A function that meets both is given (toy_blind, toy_values)."
  },
  {
   "property": "C95",
   "status": "proved",
   "theorems": [
    "image_pipeline_spec"
   ],
   "note": "GUDHI is a universally quantified function whose births and deaths are pixels or infinite. The three steps are composed directly here; that Pipeline composes its steps this way is C53."
  },
  {
   "property": "C96",
   "status": "proved",
   "theorems": [
    "fit_keeps_the_dimensions",
    "fit_keeps_the_extent",
    "fit_keeps_births_and_lifetimes",
    "training_order_does_not_matter"
   ],
   "note": "PairwiseDistance keeps the training diagrams themselves, so it is not in the claim. ex_same_extent: two different collections with a common extent."
  },
  {
   "property": "C97",
   "status": "proved",
   "theorems": [
    "log_spec",
    "log_plots",
    "log_single_plot",
    "log_of_own_plot_refuted"
   ],
   "note": "log_of_own_plot_refuted: all plots share one logger and handlers are never removed, so the error of one plot shows up in the log of another whose parameters are fine. ipywidgets' clear_output is taken to remove all outputs."
  },
  {
   "property": "C98",
   "status": "proved",
   "theorems": [
    "interval_str_brackets",
    "interval_str_injective",
    "interval_repr_evaluates",
    "interval_hash_spec",
    "interval_set_refuted",
    "interval_immutable_refuted"
   ],
   "note": "The texts of numbers and the hash of tuples are universally quantified. interval_set_refuted, interval_immutable_refuted: there is no __eq__, so a set keeps equal intervals apart, and attributes of the 'immutable' object can be assigned."
  },
  {
   "property": "C99",
   "status": "proved",
   "theorems": [
    "sliding_window_older_values",
    "sliding_window_newer_values",
    "sliding_window_newer_values_exact",
    "sliding_window_older_labels",
    "takens_older_values",
    "takens_newer_values",
    "resampler_newer_values",
    "stationarizer_older_values"
   ],
   "note": "Labels: size >= 2, as for size 1 there are none (C02)."
  }
 ]
}