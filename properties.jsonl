{"id": "C01", "title": "Sliding windows are exact slices ending at the last value", "statement": "SlidingWindow.transform(X) returns exactly (n-size)//stride + 1 windows; window i holds the `size` consecutive input rows starting at offset (n-size) mod stride + i*stride, so the last window ends at the last input row; ValueError iff fewer than `size` rows.", "quantifier": "every series length n, every size >= 1 and stride >= 1, every entry type", "why_tests_cant": "A unit test fixes one (n,size,stride); off-by-one errors appear only for particular residues of (n-size) mod stride.", "anchors": ["gtda/time_series/embedding.py:_time_delay_embedding", "gtda/time_series/embedding.py:SlidingWindow.transform"]}
{"id": "C02", "title": "SlidingWindow keeps X and y aligned exactly when size >= 2", "statement": "SlidingWindow.transform_resample(X, y) rejects a series shorter than size with ValueError; otherwise it returns windows W and labels y' that have equal length, entry i of y' being the label of the last time point of window i, if and only if size >= 2. For the admissible size=1 y' is empty whatever the input (a defect: every label is lost).", "quantifier": "every n, size >= 1, stride >= 1 and every pair X, y of equal length", "why_tests_cant": "Alignment depends on Python's negative-stride slicing at its boundary cases; tests sample few sizes and never size=1.", "anchors": ["gtda/time_series/embedding.py:SlidingWindow.resample", "gtda/base.py:TransformerResamplerMixin.transform_resample"]}
{"id": "C03", "title": "Takens embeddings are exact delayed copies", "statement": "The Takens embedding of a series with dimension d, delay t and stride s has exactly (n-(d-1)t-1)//s + 1 vectors, vector i being (x[o+is], x[o+is+t], ..., x[o+is+(d-1)t]); the final vector's final entry is the last value of the series (ensure_last_value) or the first vector starts at index 0 (otherwise); ValueError iff the series is too short.", "quantifier": "every series, d, t, s >= 1 and both values of ensure_last_value", "why_tests_cant": "Index arithmetic over four integer parameters; no finite test set covers all residues.", "anchors": ["gtda/time_series/embedding.py:_time_delay_embedding", "gtda/time_series/embedding.py:TakensEmbedding.transform", "gtda/time_series/embedding.py:SingleTakensEmbedding.transform"]}
{"id": "C04", "title": "SingleTakensEmbedding keeps X and y aligned exactly when dimension >= 2", "statement": "SingleTakensEmbedding.transform_resample(X, y) rejects a series shorter than time_delay*(dimension-1)+1 with ValueError; otherwise y' has one label per embedded vector, namely the label at the time of the vector's last coordinate, if and only if dimension >= 2. For dimension 1 y' is empty whatever the input (a defect).", "quantifier": "every n, dimension >= 1, time delay >= 1 and stride >= 1, and every pair X, y of equal length", "why_tests_cant": "The slice bound becomes -1 only when dimension is 1, a boundary no test visits.", "anchors": ["gtda/time_series/embedding.py:SingleTakensEmbedding.resample"]}
{"id": "C05", "title": "Labeller aligns features with future windows", "statement": "Labeller.transform_resample(X, y) returns equally long sequences; entry i of X' is X at some time t and entry i of y' is computed from the `size` consecutive values of y whose last time is t + n_steps_future.", "quantifier": "every series length, window size and n_steps_future >= 1 (smaller than, equal to or larger than size - 1)", "why_tests_cant": "Two truncation branches in transform and resample have to agree in all regimes of (size, n_steps_future).", "anchors": ["gtda/time_series/target.py:Labeller.transform", "gtda/time_series/target.py:Labeller.resample"]}
{"id": "C06", "title": "Labeller classes are well defined", "statement": "With percentiles set, every label returned by Labeller.resample is the index of the only threshold class [t_{k-1}, t_k) containing the window value; if some value lies in two classes (unsorted percentiles) a ValueError is raised, never a shifted label vector.", "quantifier": "every list of thresholds, sorted or not, and every list of non-negative window values", "why_tests_cant": "The label vector is obtained by flattening a boolean matrix; a silent misalignment would need an adversarial threshold list that tests do not use.", "anchors": ["gtda/time_series/target.py:Labeller.resample", "gtda/time_series/target.py:Labeller.fit"]}
{"id": "C07", "title": "Resampler and Stationarizer keep X and y aligned", "statement": "Resampler.transform_resample and Stationarizer.transform_resample return X' and y' of equal length, entry i of both coming from the same input time; Resampler keeps exactly the indices divisible by period.", "quantifier": "every series, period >= 1", "why_tests_cant": "Holds for all lengths and periods, tests use two or three.", "anchors": ["gtda/time_series/preprocessing.py:Resampler", "gtda/time_series/preprocessing.py:Stationarizer"]}
{"id": "C08", "title": "Takens parameter search returns admissible parameters", "statement": "takens_embedding_optimal_parameters returns a time delay in [1, max_time_delay] minimising the mutual information and a dimension in [2, max_dimension] minimising the variation score, ties resolved to the smallest. (max_dimension = 1 is accepted by the validator but makes the search raise.)", "quantifier": "every pair of score functions (mutual information and false-neighbour counts) and all bounds", "why_tests_cant": "The scores are arbitrary numbers; argmin index offsets are only visible for adversarial score sequences.", "anchors": ["gtda/time_series/embedding.py:takens_embedding_optimal_parameters", "gtda/time_series/embedding.py:SingleTakensEmbedding.fit"]}
{"id": "C09", "title": "PearsonDissimilarity is a bounded symmetric dissimilarity", "statement": "Every matrix returned by PearsonDissimilarity has entries (1 - r)/2, or 1 - |r| with absolute_value, where r is Pearson's correlation of the two columns; for series with at least two rows and without constant columns it is symmetric, has zero diagonal and entries in [0,1]; an entry is 0 exactly if one column is an increasing affine function of the other (any affine function with absolute_value) and 1 exactly if it is a decreasing one (uncorrelated columns with absolute_value). Increasing affine changes of columns change nothing. With one row, or in rows and columns of constant series, the entries are NaN.", "quantifier": "all real multivariate series with non-constant columns", "why_tests_cant": "Boundedness is Cauchy-Schwarz over all real inputs.", "anchors": ["gtda/time_series/multivariate.py:PearsonDissimilarity"]}
{"id": "C10", "title": "PermutationEntropy depends only on order patterns", "statement": "PermutationEntropy of a point cloud is the entropy in bits of the frequencies of its order patterns; it is unchanged by reordering points, by n_jobs and by any strictly increasing map applied to all coordinates, is between 0 and both log2 of the number of points and log2(d!), and is 0 iff a single order pattern occurs.", "quantifier": "all point clouds and all strictly increasing maps", "why_tests_cant": "Universally quantified over monotone maps.", "anchors": ["gtda/time_series/features.py:PermutationEntropy"]}
{"id": "C11", "title": "Diagram post-processing preserves exactly the non-trivial points", "statement": "For every sample and requested dimension, the post-processed diagram contains, in order, exactly the backend's points with birth < death (infinite deaths replaced by infinity_values; for reduced homology one H0 point removed), and every additional row is a diagonal point (b,b,dim).", "quantifier": "every backend output, every list of homology dimensions, both values of reduced_homology, both H0 conventions", "why_tests_cant": "Padding, masking and slot assignment interact over whole collections; tests look at a handful of diagrams.", "anchors": ["gtda/homology/_utils.py:_postprocess_diagrams"]}
{"id": "C12", "title": "Post-processed collections are rectangular and valid", "statement": "The array built from a collection has the same number of rows for each sample, dimensions in sorted order with the same number of rows per dimension in each sample, at least one row per requested dimension, births <= deaths; hence it is accepted by check_diagrams.", "quantifier": "every collection of backend outputs", "why_tests_cant": "Rectangularity across samples must hold for all combinations of per-sample counts.", "anchors": ["gtda/homology/_utils.py:_postprocess_diagrams", "gtda/utils/validation.py:check_diagrams"]}
{"id": "C13", "title": "Homology output can be split back by dimension", "statement": "Extracting one homology dimension from a collection produced by the homology transformers never mixes samples or dimensions: sample i of the extracted array consists of exactly the dimension-d rows of sample i.", "quantifier": "every collection produced by post-processing; refuted for arbitrary collections that pass check_diagrams", "why_tests_cant": "The extraction only checks a total count; mixing is silent for adversarial collections.", "anchors": ["gtda/diagrams/_utils.py:_subdiagrams", "gtda/homology/_utils.py:_postprocess_diagrams"]}
{"id": "C14", "title": "Weak alpha complex edges join Delaunay neighbours", "statement": "The sparse distance matrix that WeakAlphaPersistence passes to the flag-complex backend has an entry at (i,j) only if j is a Delaunay neighbour of i, and its value is their distance. (False as soon as a point has no Delaunay neighbour, e.g. duplicated points.)", "quantifier": "every Delaunay adjacency structure (indptr, indices)", "why_tests_cant": "Failure needs degenerate point clouds; tests use generic ones.", "anchors": ["gtda/homology/simplicial.py:WeakAlphaPersistence._weak_alpha_diagram"]}
{"id": "C15", "title": "CubicalPersistence exposes its documented attributes", "statement": "After fit, periodic_dimensions_ has one entry per image axis. (False: when the parameter is None it has one entry per sample minus one.)", "quantifier": "every image collection shape and parameter value", "why_tests_cant": "Tests only use shapes for which no consequence is visible.", "anchors": ["gtda/homology/cubical.py:CubicalPersistence.fit"]}
{"id": "C16", "title": "Flagser diagrams cover all requested dimensions", "statement": "The list handed to post-processing by FlagserPersistence has one entry for each dimension 0..max(homology_dimensions), empty below min_dimension and above the last one returned by flagser, so the lookup of every requested dimension succeeds and yields flagser's points in that dimension.", "quantifier": "every list of requested dimensions and every flagser output length", "why_tests_cant": "Depends on list padding arithmetic for all dimension sets.", "anchors": ["gtda/homology/simplicial.py:FlagserPersistence._flagser_diagram"]}
{"id": "C17", "title": "Filtering removes exactly the short-lived points", "statement": "Filtering.transform keeps, in order, exactly the points of the chosen dimensions with lifetime > epsilon plus all points of other dimensions unchanged; all added rows are diagonal; each dimension has the same number of rows in each sample.", "quantifier": "every collection of diagrams, epsilon >= 0 and list of dimensions", "why_tests_cant": "Per-sample counts differ arbitrarily; index arithmetic with cumulative counts.", "anchors": ["gtda/diagrams/_utils.py:_filter", "gtda/diagrams/preprocessing.py:Filtering"]}
{"id": "C18", "title": "Scaler inverts and normalises", "statement": "Scaler.inverse_transform(Scaler.transform(X)) = X whenever scale_ != 0, and with the default bottleneck metric and max function the most persistent point over all diagrams and dimensions has lifetime exactly 2 after fit_transform.", "quantifier": "every collection of diagrams with at least one off-diagonal point", "why_tests_cant": "Exact algebraic law over all inputs.", "anchors": ["gtda/diagrams/preprocessing.py:Scaler", "gtda/diagrams/_metrics.py:bottleneck_amplitudes"]}
{"id": "C19", "title": "ForgetDimension only changes the dimension column", "statement": "ForgetDimension.transform keeps every birth-death pair at its place and sets all dimensions to infinity.", "quantifier": "every collection of diagrams", "why_tests_cant": "Quantifies over all inputs.", "anchors": ["gtda/diagrams/preprocessing.py:ForgetDimension"]}
{"id": "C20", "title": "Betti curves count living points", "statement": "Each value of BettiCurve is the number of points with birth <= s < death; it is invariant under reordering points and adding or removing diagonal points.", "quantifier": "every diagram, every grid", "why_tests_cant": "Universal counting law.", "anchors": ["gtda/diagrams/_metrics.py:betti_curves", "gtda/diagrams/representations.py:BettiCurve"]}
{"id": "C21", "title": "Landscape layers are the k-th largest tents", "statement": "Layer k of PersistenceLandscape at s is the k-th largest value of max(0, min(s-b, d-s)) over the points (0 beyond the number of points); layers are decreasing in k, non-negative, invariant under reordering and diagonal padding.", "quantifier": "every diagram, grid, number of layers (also larger than the number of points)", "why_tests_cant": "Order statistics over arbitrary point sets.", "anchors": ["gtda/diagrams/_metrics.py:landscapes", "gtda/diagrams/representations.py:PersistenceLandscape"]}
{"id": "C22", "title": "Silhouettes are weighted averages of tents", "statement": "Each Silhouette value lies between 0 and the first landscape layer, equals the persistence-weighted mean of tents, is 0 for diagrams without off-diagonal points, and ignores diagonal padding.", "quantifier": "every diagram, grid and positive power", "why_tests_cant": "Inequality between two representations over all inputs.", "anchors": ["gtda/diagrams/_metrics.py:silhouettes"]}
{"id": "C23", "title": "Heat kernel rasters are antisymmetric and ignore diagonal points", "statement": "The heat image of HeatKernel is antisymmetric under transposition; only in-range points are sampled, each pixel holds the number of points falling in its cell and clipping never writes out of range; diagonal points contribute 0.", "quantifier": "every diagram, grid and symmetric smoothing kernel", "why_tests_cant": "Accumulation with repeated indices and clipping for arbitrary points.", "anchors": ["gtda/diagrams/_metrics.py:heats", "gtda/diagrams/_metrics.py:_sample_image"]}
{"id": "C24", "title": "Amplitude equals distance to the trivial diagram", "statement": "For betti, landscape, silhouette, bottleneck and wasserstein, the amplitude of a diagram is the corresponding distance to a diagram with only diagonal points; it is non-negative and unaffected by diagonal padding.", "quantifier": "every diagram, grid, exponent p >= 1", "why_tests_cant": "Relates two independently written code paths on all inputs.", "anchors": ["gtda/diagrams/_metrics.py:*_amplitudes", "gtda/diagrams/_metrics.py:*_distances"]}
{"id": "C25", "title": "Pairwise distance matrices are symmetric with zero diagonal", "statement": "PairwiseDistance.fit_transform returns for the vectorised metrics a symmetric matrix with zero diagonal, non-negative entries and the triangle inequality.", "quantifier": "every collection of diagrams", "why_tests_cant": "Metric axioms quantify over all triples.", "anchors": ["gtda/diagrams/_metrics.py:_parallel_pairwise", "gtda/diagrams/distance.py:PairwiseDistance"]}
{"id": "C26", "title": "Results do not depend on n_jobs", "statement": "Amplitudes, pairwise distances, curves, features and image filtrations computed with any number of jobs are identical to the sequential ones: splitting samples in even slices, processing and reassembling gives the map over samples, and the block order of dimensions is preserved.", "quantifier": "every n_jobs >= 1 and every number of samples, also n_jobs > n_samples", "why_tests_cant": "Quantifies over schedules and slice boundaries.", "anchors": ["gtda/diagrams/_metrics.py:_parallel_pairwise", "gtda/diagrams/_metrics.py:_parallel_amplitude", "sklearn gen_even_slices callers"]}
{"id": "C27", "title": "PersistenceEntropy depends only on relative lifetimes", "statement": "The entropy is between 0 and log2(number of points), unchanged by multiplying all lifetimes by a positive constant, by reordering, and by adding diagonal points; nan_fill_value iff there is no off-diagonal point.", "quantifier": "every diagram", "why_tests_cant": "Real-analytic inequality over all inputs.", "anchors": ["gtda/diagrams/features.py:PersistenceEntropy"]}
{"id": "C28", "title": "NumberOfPoints counts off-diagonal points", "statement": "NumberOfPoints returns for every sample and dimension the number of points with birth != death; the result is independent of padding.", "quantifier": "every collection with equal counts per dimension", "why_tests_cant": "Universal counting law.", "anchors": ["gtda/diagrams/features.py:NumberOfPoints"]}
{"id": "C29", "title": "ComplexPolynomial coefficients are Vieta sums", "statement": "The coefficient block of ComplexPolynomial for a dimension lists real parts then imaginary parts of the coefficients 1..n of the monic polynomial whose roots are the off-diagonal points, zero-padded or truncated to n_coefficients_; the polynomial vanishes exactly at the roots and does not depend on point order. (Crashes when a subdiagram has no off-diagonal points; n_coefficients=None differs from the documentation.)", "quantifier": "every list of points and every n_coefficients", "why_tests_cant": "Polynomial identity for arbitrary degree.", "anchors": ["gtda/diagrams/features.py:ComplexPolynomial", "gtda/diagrams/_features.py:_calculate_coefficients"]}
{"id": "C30", "title": "Sampling grids cover the training range", "statement": "The grid used by the vectorised representations starts at the smallest and ends at the largest finite value of the training diagrams in that dimension, with n_bins equally spaced values; after fit on X all points of X fall inside.", "quantifier": "every collection, n_bins >= 2; n_bins = 1 gives an undefined step", "why_tests_cant": "Requires reasoning on min/max for all inputs.", "anchors": ["gtda/diagrams/_utils.py:_bin"]}
{"id": "C31", "title": "Diagonal points never change features", "statement": "Adding diagonal padding points inside the existing value range leaves BettiCurve, PersistenceLandscape, Silhouette, HeatKernel, NumberOfPoints, PersistenceEntropy and all amplitudes unchanged.", "quantifier": "every diagram and padding", "why_tests_cant": "Every homology transformer pads, so this must hold for any padding pattern.", "anchors": ["gtda/diagrams/_metrics.py", "gtda/diagrams/_features.py"]}
{"id": "C32", "title": "DilationFiltration is the taxicab distance", "statement": "The value of a pixel is its taxicab distance to the nearest activated pixel of the same image when that distance is at most n_iterations (and max_value_), and max_value_ otherwise; activated pixels get 0.", "quantifier": "every binary image of any dimension and shape, every n_iterations", "why_tests_cant": "Equality of iterated dilation with a metric distance is an induction over all images.", "anchors": ["gtda/images/filtrations.py:DilationFiltration"]}
{"id": "C33", "title": "ErosionFiltration is dual to dilation", "statement": "ErosionFiltration on an image equals DilationFiltration on the inverted image.", "quantifier": "every binary image and number of iterations", "why_tests_cant": "Border handling of erosion is where duality can fail; must hold for all images.", "anchors": ["gtda/images/filtrations.py:ErosionFiltration"]}
{"id": "C34", "title": "SignedDistanceFiltration has the right sign and magnitude", "statement": "Activated pixels receive distance to the closest deactivated pixel minus one (>= 0), deactivated pixels minus the distance to the closest activated pixel (< 0), capped by +-max_value.", "quantifier": "every binary image and number of iterations", "why_tests_cant": "Composition of two iterations and masks over all images.", "anchors": ["gtda/images/filtrations.py:SignedDistanceFiltration"]}
{"id": "C35", "title": "HeightFiltration is a projection", "statement": "For activated pixels the value is the distance to the supporting hyperplane (non-negative, linear in the position, increasing along the direction); deactivated pixels get a value larger than all activated ones.", "quantifier": "every image shape and direction", "why_tests_cant": "Sign-dependent mesh construction for all directions.", "anchors": ["gtda/images/filtrations.py:HeightFiltration"]}
{"id": "C36", "title": "RadialFiltration is distance from the centre within the radius", "statement": "Activated pixels within radius have their distance to center, every other pixel has max_value_, strictly larger than every distance within the radius.", "quantifier": "every image, centre, radius, metric", "why_tests_cant": "Sentinel values (-1, inf) must not collide with data for all inputs.", "anchors": ["gtda/images/filtrations.py:RadialFiltration"]}
{"id": "C37", "title": "DensityFiltration counts neighbours in a ball", "statement": "The value of a pixel is the number of activated pixels whose offset lies in the ball of the given radius; rolling around the border never contributes.", "quantifier": "every image, radius and metric", "why_tests_cant": "Wrap-around contamination would only show for active pixels near opposite borders.", "anchors": ["gtda/images/filtrations.py:DensityFiltration", "gtda/images/preprocessing.py:Padder"]}
{"id": "C38", "title": "Binarizer, Inverter and Padder satisfy their laws", "statement": "Binarizer output is true iff pixel/max > threshold and is monotone; Inverter is an involution; Padder adds the exact number of padding pixels with the fill value and keeps the image content at the shifted position.", "quantifier": "every image collection, padding, threshold", "why_tests_cant": "Algebraic laws over all images.", "anchors": ["gtda/images/preprocessing.py"]}
{"id": "C39", "title": "ImageToPointCloud is a bijection onto active pixels", "statement": "The point cloud has one point per activated pixel with coordinates (column, n_rows-1-row[, depth]) and no other point.", "quantifier": "every binary image in 2D and 3D", "why_tests_cant": "Bijection over all images.", "anchors": ["gtda/images/preprocessing.py:ImageToPointCloud"]}
{"id": "C40", "title": "Uniform covers cover the line with the requested overlap", "statement": "A uniform OneDimensionalCover covers every real number (also unseen data), each interval has the same length, consecutive intervals overlap in the fraction overlap_frac, and each training value lies in some interval.", "quantifier": "every training range, n_intervals >= 1, overlap in (0,1)", "why_tests_cant": "Covering of the continuum.", "anchors": ["gtda/mapper/cover.py:OneDimensionalCover._fit_uniform", "gtda/mapper/utils/_cover.py"]}
{"id": "C41", "title": "Cover masks describe membership and lose no sample", "statement": "OneDimensionalCover.transform returns masks whose entry (p,i) says whether left_i < x_p < right_i, without empty or repeated columns, and each sample is in at least one column.", "quantifier": "every fitted cover and data", "why_tests_cant": "Column removal must not lose samples for any data.", "anchors": ["gtda/mapper/cover.py:OneDimensionalCover.transform", "gtda/mapper/utils/_cover.py:_remove_empty_and_duplicate_intervals"]}
{"id": "C42", "title": "Balanced cover: fit_transform agrees with fit then transform", "statement": "For kind='balanced', fit_transform(X) equals fit(X).transform(X).", "quantifier": "every training array with at least two distinct values", "why_tests_cant": "Two different code paths (ranks vs values).", "anchors": ["gtda/mapper/cover.py:OneDimensionalCover._fit_balanced", "gtda/mapper/cover.py:OneDimensionalCover.fit_transform"]}
{"id": "C43", "title": "CubicalCover is the product cover", "statement": "A sample is in the hypercube (i_1..i_d) iff each coordinate is in the corresponding interval; each sample is in at least one hypercube.", "quantifier": "every data matrix and number of columns", "why_tests_cant": "Cartesian products of arbitrary many covers.", "anchors": ["gtda/mapper/cover.py:CubicalCover"]}
{"id": "C44", "title": "ParallelClustering labels describe the refined cover", "statement": "Entry p of the clustering labels lists, by increasing pullback set i, the pair (i, label) for exactly the pullback sets containing sample p, with the label the clusterer gave to p within that set; independent of n_jobs and scheduling.", "quantifier": "every mask matrix and clusterer", "why_tests_cant": "Label bookkeeping over arbitrary overlapping sets.", "anchors": ["gtda/mapper/cluster.py:ParallelClustering.fit"]}
{"id": "C45", "title": "Nerve nodes and edges are exactly clusters and intersections", "statement": "The Mapper graph has one node per (pullback set, partial cluster) pair with the right element sets, and an edge between two nodes iff they share at least min_intersection elements (and at least one), with weight the size of the intersection; edge elements when requested.", "quantifier": "every refined cover label list and min_intersection", "why_tests_cant": "Graph-wide iff over all pairs.", "anchors": ["gtda/mapper/nerve.py:Nerve.fit_transform"]}
{"id": "C46", "title": "Contracted nerves keep only maximal clusters", "statement": "With contract_nodes=True every remaining node carries the elements of a maximal cluster and there are no self-loops. (Refuted: attributes of the lowest-index merged vertex are kept, and leftover edges become loops.) The representative chosen for each node is a maximal cluster containing it and the search terminates.", "quantifier": "every refined cover", "why_tests_cant": "Requires adversarial inclusion patterns.", "anchors": ["gtda/mapper/nerve.py:Nerve._contract_nodes"]}
{"id": "C47", "title": "The Mapper pipeline loses no sample", "statement": "In the graph from cover + clustering + nerve, each sample belongs to at least one node, to one node per pullback set containing it, and two nodes are adjacent only if they share samples.", "quantifier": "every dataset, cover and clusterer", "why_tests_cant": "End-to-end composition.", "anchors": ["gtda/mapper/pipeline.py", "gtda/mapper/nerve.py", "gtda/mapper/cluster.py"]}
{"id": "C48", "title": "Gap clusterers return an admissible number of clusters", "statement": "FirstSimpleGap and FirstHistogramGap return between 1 and max(1, max_fraction*n_samples) clusters and their gap search terminates. (Lower bound refuted for small max_fraction.)", "quantifier": "every increasing list of merge heights and parameters", "why_tests_cant": "Termination for all inputs.", "anchors": ["gtda/mapper/utils/_cluster.py", "gtda/mapper/cluster.py"]}
{"id": "C49", "title": "MapperPipeline.set_params routes to the right step", "statement": "set_params(**kw) on Mapper-level names changes exactly the corresponding nested parameter, whatever combination is given, and get_mapper_params reports it. (n_jobs is not reported.)", "quantifier": "every combination of keyword names", "why_tests_cant": "String-prefix dispatch for arbitrary names.", "anchors": ["gtda/mapper/pipeline.py:MapperPipeline"]}
{"id": "C50", "title": "Interval implements interval arithmetic", "statement": "x in Interval iff the side conditions hold; intersects(other) iff some real lies in both; is_empty iff no real lies in it; translations and scalings act pointwise.", "quantifier": "all endpoints (including infinities), all four closures", "why_tests_cant": "Existence of common points is a statement on a continuum.", "anchors": ["gtda/utils/intervals.py:Interval"]}
{"id": "C51", "title": "validate_params accepts exactly the documented parameters", "statement": "validate_params(params, references) succeeds iff each parameter has an allowed type, is in the allowed set/interval and passes other, recursively for list/dict contents; unknown names raise KeyError.", "quantifier": "all parameter and reference dictionaries", "why_tests_cant": "Recursive validator over all nested values.", "anchors": ["gtda/utils/validation.py:validate_params"]}
{"id": "C52", "title": "check_diagrams accepts exactly valid collections", "statement": "check_diagrams returns the array unchanged iff it is 3D with at least one sample and three columns, has no NaN, the dimensions of the first diagram are all infinite or all non-negative integers, and no point of any diagram has death < birth. Every rejection is a ValueError, except that an array passing the shape and NaN checks whose first diagram has dimension -inf raises OverflowError. (The dimensions of the other diagrams are not checked: a defect.)", "quantifier": "all shapes and all arrays of that shape, with entries finite, infinite or NaN", "why_tests_cant": "Completeness of rejection quantifies over all malformed inputs.", "anchors": ["gtda/utils/validation.py:check_diagrams"]}
{"id": "C53", "title": "Pipeline composes transforms and resamplings", "statement": "Pipeline.transform_resample, fit_transform_resample, predict and score apply each step's transform and resample in order; X and y stay aligned if each step keeps them aligned.", "quantifier": "every list of steps", "why_tests_cant": "Induction on arbitrary pipelines.", "anchors": ["gtda/pipeline.py:Pipeline"]}
{"id": "C54", "title": "TransitionGraph edges are state transitions", "statement": "The matrix from TransitionGraph is square over the distinct rows in lexicographic order, with zero diagonal; its entry (i,j), i != j, is the number of times state j comes right after state i, so it is non-zero iff that happens somewhere. (The documentation also says the graph is undirected, its matrix has only zeros and ones, and func_params are passed to func: these are refuted.)", "quantifier": "every array of states and preprocessing function", "why_tests_cant": "Iff over all pairs of states.", "anchors": ["gtda/graphs/transition.py:TransitionGraph"]}
{"id": "C55", "title": "ConsistentRescaling is symmetric and scale free", "statement": "Rescaled matrices are symmetric with zero diagonal and entries d_ij / sqrt(r_i r_j), unchanged when all distances are multiplied by a positive constant; ConsecutiveRescaling multiplies only entries (i,i+1).", "quantifier": "all distance matrices with positive k-th neighbour distances", "why_tests_cant": "Real-algebraic law.", "anchors": ["gtda/point_clouds/rescaling.py"]}
{"id": "C56", "title": "Derivative is the iterated finite difference", "statement": "Derivative of order k shortens each channel by k and value i is the alternating binomial sum of the k+1 consecutive inputs.", "quantifier": "every curve and order", "why_tests_cant": "Arbitrary order k.", "anchors": ["gtda/curves/preprocessing.py:Derivative"]}
{"id": "C57", "title": "StandardFeatures applies the right function to the right channel", "statement": "Column block c of the output holds the c-th function of channel c with its own parameters, None functions are skipped, for each sample and every n_jobs.", "quantifier": "every list of functions and shapes", "why_tests_cant": "Layout after parallel reshape.", "anchors": ["gtda/curves/features.py:StandardFeatures", "gtda/curves/_functions.py"]}
{"id": "C58", "title": "Local homology uses the coned annulus", "statement": "The matrix used for a point has the distances among the points of the larger neighbourhood and one extra cone point at distance 0 from the annulus and infinite distance from the inner neighbourhood, and is symmetric.", "quantifier": "every neighbourhood structure", "why_tests_cant": "Set differences and index offsets for all structures.", "anchors": ["gtda/local_homology/simplicial.py"]}
{"id": "C59", "title": "What a history of calls leaves behind in local homology transformers and covers", "statement": "After any history of fit calls, RadiusLocalVietorisRips.fit gives the same as on a new estimator; KNeighborsLocalVietorisRips uses min(a, s-1) and min(b, s) neighbours where s is the smallest training set ever fitted, so a refit equals a new fit exactly when no earlier set was too small (refuted in general); in both classes set_params on radii / n_neighbors is ignored by every later fit (the expected effect is refuted), but clone honours it. OneDimensionalCover holds the limits of the last successful fit, or uniform fit_transform: for kind='balanced' fit_transform leaves the old limits (refuted).", "quantifier": "every history of fit / fit_transform / set_params calls on any data", "why_tests_cant": "Histories are unbounded.", "anchors": ["gtda/local_homology/simplicial.py", "gtda/mapper/cover.py", "gtda/diagrams/*"]}
{"id": "C60", "title": "CollectionTransformer and ListFeatureUnion act per item", "statement": "For every schedule of the parallel tasks, CollectionTransformer(t).fit_transform(X) and transform(X) are the collection of clone(t).fit_transform(x) over the entries x of X in order, whatever t was fitted on before, and leave t untouched; the outputs are stacked into one array exactly if their shapes agree; if some entries fail the exception of one of them is raised. ListFeatureUnion fits every transformer on the same data and returns one (weighted) output per non-dropped transformer in order, keeps names and dropped places, and transform on the training data gives what fit_transform gave.", "quantifier": "every collection and transformer", "why_tests_cant": "Schedules and arbitrary transformers.", "anchors": ["gtda/metaestimators/collection_transformer.py", "gtda/mapper/utils/_list_feature_union.py"]}
{"id": "C61", "title": "Point-cloud validation accepts exactly supported collections", "statement": "check_point_clouds accepts an input iff it is a 3D array or a list of 2D arrays (square if distance matrices) with only permitted non-finite values.", "quantifier": "all inputs", "why_tests_cant": "Completeness of rejection.", "anchors": ["gtda/utils/validation.py:check_point_clouds"]}
{"id": "C62", "title": "Homology transformers return each sample's points in the requested dimensions", "statement": "The persistent homology transformers return one diagram per sample, in input order; its off-diagonal rows in each requested dimension are exactly the backend's non-trivial points of that sample (infinite deaths replaced by infinity_values or the threshold, one infinite H0 class dropped if reduced), there are no rows in other dimensions, and they do not depend on the other samples. (A dimension requested twice is listed twice.)", "quantifier": "every collection, every list of homology dimensions in any order, every backend output", "why_tests_cant": "Depends on sorting, padding and slot arithmetic for arbitrary numbers of points per sample and dimension.", "anchors": ["gtda/homology/simplicial.py", "gtda/homology/cubical.py", "gtda/homology/_utils.py:_postprocess_diagrams"]}
{"id": "C63", "title": "GraphGeodesicDistance measures the documented graph", "statement": "For every adjacency matrix, the graph handed to scipy has exactly the documented edges (finite entries, including zeros, of dense numeric arrays; True entries of Boolean ones; entries not masked; stored entries of sparse matrices, padded to square), with a method that supports zero-length edges, so each output is the geodesic distance matrix of the documented graph; outputs are stacked in one array iff all have one shape.", "quantifier": "all dense, masked and sparse adjacency matrices, all methods", "why_tests_cant": "Equality of edge sets for every matrix and every mix of zeros, infinities and negative weights.", "anchors": ["gtda/graphs/geodesic_distance.py:GraphGeodesicDistance"]}
{"id": "C64", "title": "Mapper filters compute their documented value per row", "statement": "Eccentricity returns, for each sample, the norm of the given order of its distances to all samples (or of its row of a precomputed matrix), independently of the order of the samples; Entropy the base-2 Shannon entropy of the absolute values of the row divided by their sum (NaN for a row of zeros), whatever the other rows; Projection the requested columns in the requested order, by position for arrays and by label for data frames. Empty input and NaN or infinite entries are rejected with ValueError, columns out of range with IndexError, missing labels with KeyError. (Defects: negative exponents always give 0; fit of Projection checks columns transform ignores; a row of zeros makes the output of Entropy unusable by the next step.)", "quantifier": "all arrays of all sizes, all metrics, all exponents including 0, negative and infinite ones, all column selections and data frames", "why_tests_cant": "Equality with the mathematical definition for every array, exponent and metric.", "anchors": ["gtda/mapper/filter.py:Eccentricity", "gtda/mapper/filter.py:Entropy", "gtda/mapper/filter.py:Projection"]}
{"id": "C65", "title": "Callables and methods turned into transformers act row by row", "statement": "transformer_from_callable_on_rows(func) returns one row per sample holding the numbers func returns for it, as a column for scalars, if and only if the type of the result for the FIRST sample can represent all of them; otherwise numbers are truncated (a defect), even depending on the order of the samples. None gives the identity. Functions with a parameter axis but no keepdims raise TypeError. A class extended by method_to_transform returns what the method returns, vectors as columns, and None if the method is missing; fit_transform is fit followed by transform unless the class has a fit_transform of its own (a defect).", "quantifier": "all callables, all inputs, all classes", "why_tests_cant": "Ranges over arbitrary user functions and their result types on every row.", "anchors": ["gtda/mapper/utils/pipeline.py:transformer_from_callable_on_rows", "gtda/mapper/utils/decorators.py:method_to_transform"]}
{"id": "C66", "title": "Number of false nearest neighbours used by the Takens search", "statement": "For a series of n values, delay t, dimension d and stride s with at least two delay vectors (n >= t(d-1)+1+s), the score is the number of positions k, below the number of vectors minus d t, such that the distance of vector k to its nearest neighbour is not 0, is less than twice the standard deviation of the series, and is more than ten times smaller than |X[n-n'+k+dt] - X[j]|, n' being the number of vectors and j the neighbour of vector k+dt; with fewer vectors ValueError is raised. The score is 0 for a constant series and does not depend on the unit and origin of the values. (Defect: the textbook criterion compares X[k+dt] with X[i+dt] for i the neighbour of vector k; the two numbers differ.)", "quantifier": "all series, delays, dimensions and strides, and any nearest neighbour routine returning one index per vector", "why_tests_cant": "Exact characterisation of a count for every series, including all interactions of roll, negative slices and strides.", "anchors": ["gtda/time_series/_utils.py:_false_nearest_neighbors", "gtda/time_series/embedding.py:takens_embedding_optimal_parameters"]}
{"id": "C67", "title": "Mutual information score and the full Takens parameter search", "statement": "The score of a delay is the mutual information of the pairs (X[k], X[k+t]), each coordinate divided in bins of equal width between its least and greatest value: it is never negative, is zero exactly if the two binned coordinates are independent, and does not change if the values are shifted, multiplied by a positive number or reversed in time. The search returns the first delay of least mutual information and then the first dimension of least documented score of the numbers of false neighbours; it raises ValueError exactly if the series is too short for that delay and dimension max_dimension + 2. (Defect: with max_time_delay >= n - 1 the degenerate delay n - 1 always has the least score, so that the search fails.)", "quantifier": "all series, numbers of bins, delays, search ranges and strides, any nearest neighbour routine", "why_tests_cant": "Equality with and inequalities about an information-theoretic quantity for every series.", "anchors": ["gtda/time_series/_utils.py:_mutual_information", "gtda/time_series/embedding.py:takens_embedding_optimal_parameters"]}
{"id": "C68", "title": "plot_diagram draws exactly the off-diagonal points", "statement": "For every diagram with finite births and finite or infinite deaths, plot_diagram gives one marker trace per requested dimension (by default every dimension present, in increasing order) with exactly the off-diagonal points of that dimension, their hover texts reporting birth, death and the multiplicity when it exceeds 1; everything lies within the axes; deaths at infinity lie on a horizontal line strictly above all finite coordinates as soon as two finite coordinates differ; padding with diagonal points does not change the figure. (Defect: a diagram whose only off-diagonal point is (b, inf) is drawn in a figure of extent zero, with that point on the diagonal.)", "quantifier": "all diagrams with finite births, all selections of dimensions", "why_tests_cant": "Exact content of the figure for every diagram, including all paddings and multiplicities.", "anchors": ["gtda/plotting/persistence_diagrams.py:plot_diagram"]}
{"id": "C69", "title": "transform_plot shows the transform of the chosen sample", "statement": "transform_plot(X, i) transforms the sample X[i] alone and plots it; for a transformer acting sample by sample this is the figure obtained by transforming the whole collection and plotting sample i, and for the homology transformers too although their output is padded differently. An index out of range makes transform fail on an empty collection. (Defect: so does the valid index -1.)", "quantifier": "all transformers, plotting functions, collections and indices; all homology backends", "why_tests_cant": "Commutation of slicing, padding and plotting for every collection.", "anchors": ["gtda/base.py:PlotterMixin.transform_plot", "gtda/homology/simplicial.py", "gtda/plotting/persistence_diagrams.py:plot_diagram"]}
{"id": "C70", "title": "Plots of vectorised diagrams", "statement": "BettiCurve.plot, Silhouette.plot and PersistenceLandscape.plot draw, for each requested dimension, the values of the function (number of living points, weighted tent mean, k-th largest tent) over the sampling fitted for that dimension, under the right name and layer number; a dimension not seen in fit raises ValueError. HeatKernel.plot and PersistenceImage.plot place at abscissa u and ordinate v the value computed for (birth u, death v), respectively (birth u, persistence v), with both axes increasing.", "quantifier": "all training and transformed collections, numbers of bins and layers, requested dimensions, smoothing filters", "why_tests_cant": "Labels, axes and values have to agree for every collection; wrong axis orders are invisible to smoke tests.", "anchors": ["gtda/diagrams/representations.py:BettiCurve.plot", "gtda/diagrams/representations.py:PersistenceLandscape.plot", "gtda/diagrams/representations.py:HeatKernel.plot", "gtda/diagrams/representations.py:PersistenceImage.plot", "gtda/diagrams/representations.py:Silhouette.plot", "gtda/plotting/images.py:plot_heatmap"]}
{"id": "C71", "title": "Plots of point clouds, derivatives and Betti curves", "statement": "plot_point_cloud draws the first two or three coordinates, as asked or three if available, coloured by position, and refuses dimensions other than 2 and 3 and clouds with too few coordinates. Derivative.plot shows by default every channel under its number. plot_betti_curves and plot_betti_surfaces draw for each requested dimension the curve and the sampling at that position. (Defects: a cloud with one coordinate raises UnboundLocalError; Derivative.plot uses as many abscissae as channels, and with channels=[c, ...] draws channels 0, 1, ... under the names c, ...; plot_betti_surfaces without samplings raises TypeError.)", "quantifier": "all clouds, curves, samplings and selections", "why_tests_cant": "Exact content of the figure for every input.", "anchors": ["gtda/plotting/point_clouds.py:plot_point_cloud", "gtda/curves/preprocessing.py:Derivative.plot", "gtda/plotting/diagram_representations.py:plot_betti_curves", "gtda/plotting/diagram_representations.py:plot_betti_surfaces"]}
{"id": "C73", "title": "Node colours of 3D Mapper hover labels", "statement": "For every monotone colour scale, given as stops or as equally spaced colours in rgb or hexadecimal notation, the colour of a value v is the linear interpolation at (v - vmin)/(vmax - vmin) of the two neighbouring stops, rounded to the nearest integer in each channel, constant beyond the first and the last stop; the colour at vmin and vmax are the end colours, a channel that is monotone along the scale is monotone in the value, and rescaling values and bounds together changes nothing. Hexadecimal parsing and printing are inverse. Empty ranges, empty scales, unknown formats and non-monotone positions are refused.", "quantifier": "all values, bounds and colour scales", "why_tests_cant": "Exact rounded interpolation for every scale and value, including repeated and decreasing positions.", "anchors": ["gtda/mapper/utils/_visualization.py:_get_colors_for_vals", "gtda/mapper/utils/_visualization.py:_hex_to_rgb", "gtda/mapper/utils/_visualization.py:_rbg_to_hex"]}
{"id": "C72", "title": "Static Mapper plots show the graph", "statement": "For every Mapper graph, colour data (array, dataframe, series or none), colour features (none, transformer, callable, column or columns) and statistic, the static plot in 2 or 3 dimensions draws each node at its layout position and each edge between the positions of its ends, sizes nodes by their number of elements with the largest one having the requested diameter, colours each node by the statistic of the colour feature over exactly its elements (the mean by default, the element index if there is no colour data), and shows in the hover text its number, labels, size and the statistic rounded to the requested number of significant figures. If there are several columns there is one menu entry per column, carrying its name, and choosing it, after any other choices, shows what a plot of that column alone shows. Arrays given as statistic are used directly. Invalid lengths, types and dimensions are refused.", "quantifier": "all graphs, colour data, colour features, statistics, layouts, rounding precisions, colour scales and histories of menu choices", "why_tests_cant": "The figure must be correct for every graph and combination of arguments, and after every sequence of menu choices; the repository's tests check a few fixed figures.", "anchors": ["gtda/mapper/visualization.py:plot_static_mapper_graph", "gtda/mapper/utils/_visualization.py:_validate_color_kwargs", "gtda/mapper/utils/_visualization.py:_calculate_graph_data", "gtda/mapper/utils/_visualization.py:_produce_static_figure", "gtda/mapper/utils/_visualization.py:_get_column_color_buttons", "gtda/mapper/utils/_visualization.py:_round_to_n_sig_figs"]}
{"id": "C74", "title": "Interactive Mapper plots agree with static ones", "statement": "After any sequence of widget changes, the parameters of the pipeline are the initial ones with the last accepted value of each editable parameter of the cover, the clusterer and the nerve; parameters without a widget are untouched. Whenever the interactive plot marks its parameters as valid, graph_ is the Mapper graph of the pipeline with these parameters, node_summaries_ are its node colours, and figure_ is the figure a static plot with the same arguments would show. A change to a new value is marked valid exactly if such a static figure (with coloured labels in three dimensions) exists. Two histories ending with the same widget values give the same state. If the pipeline fails on the new parameters, graph_, node_summaries_ and figure_ stay as they were. Arrays as node_color_statistic are refused.", "quantifier": "all pipelines (functions from parameters to graphs or errors), initial parameters, colour arguments and histories of widget changes", "why_tests_cant": "The agreement must hold after every history of changes, including rejected ones; the repository's tests change one widget once.", "anchors": ["gtda/mapper/visualization.py:MapperInteractivePlotter.plot", "gtda/mapper/visualization.py:MapperInteractivePlotter"]}
{"id": "C75", "title": "Nearest neighbour graphs", "statement": "For every non-empty collection of point clouds or distance matrices (a three-dimensional array or a list of two-dimensional ones) and every metric, KNeighborsGraph gives, sample by sample and in order, a square sparse matrix with exactly n_neighbors entries in each row, none on the diagonal, such that no point without an entry is closer than one with an entry (also with duplicate points); the entries are 1 or the distances according to mode. If the distances from a point are different, its neighbours are exactly the points to which fewer than n_neighbors others are closer, so relabelling points relabels edges and only the order of distances matters; isometric collections have equal graphs. fit learns nothing but must be called. Non-positive n_neighbors, samples with too few points and unknown modes raise ValueError. Passed on to GraphGeodesicDistance, the graphs whose shortest paths are computed have exactly these edges.", "quantifier": "all collections, metrics, numbers of neighbours, modes and neighbour searches (ties broken in any way)", "why_tests_cant": "Ties, duplicates and all sample sizes cannot be enumerated; the repository's tests use one small array.", "anchors": ["gtda/graphs/kneighbors.py:KNeighborsGraph.fit", "gtda/graphs/kneighbors.py:KNeighborsGraph.transform", "gtda/graphs/geodesic_distance.py:GraphGeodesicDistance.transform"]}
{"id": "C76", "title": "Labels of the gap clusterers", "statement": "For every data set, linkage and parameters, FirstSimpleGap and FirstHistogramGap give labels that number, by 0, ..., n_clusters_-1 and without gaps, the groups of samples joined by all but the last n_clusters_-1 merges of the dendrogram; more clusters refine the clusters. With single linkage, and unless max_fraction intervenes, two samples have the same label exactly if a chain of samples leads from one to the other in steps no larger than a threshold: for FirstSimpleGap the height of the first merge with a large enough gap minus the required gap, and samples with different labels are at least that height apart; for FirstHistogramGap the left edge of the first sparse bin. The heights depend on the distances only, so with the default max_fraction the clusters of FirstSimpleGap do not depend on how ties are broken. Unknown linkages, and Ward's linkage with another metric than the Euclidean one, raise ValueError and leave all attributes alone; after a successful fit on two or more samples no attribute depends on earlier fits.", "quantifier": "all numbers of samples, dendrograms (with arbitrary ties), dissimilarities, parameters and earlier fits", "why_tests_cant": "Tests compare labels on a few point sets; dendrograms of any size with ties, and the connection between chains of samples and labels, are out of reach.", "anchors": ["gtda/mapper/cluster.py:Agglomerative._build_tree", "gtda/mapper/cluster.py:FirstSimpleGap.fit", "gtda/mapper/cluster.py:FirstHistogramGap.fit", "gtda/mapper/utils/_cluster.py:_num_clusters_simple", "gtda/mapper/utils/_cluster.py:_num_clusters_histogram"]}
{"id": "C77", "title": "A time series pipeline, end to end", "statement": "A pipeline of SlidingWindow, TakensEmbedding, VietorisRipsPersistence and PersistenceEntropy or NumberOfPoints, once fitted on a series with labels, turns every series at least as long as a window, with as many labels as times, into one row of features and one label for each window: windows are aligned to the end of the series, the label of a window is that of its last time, and its row holds, for each requested homology dimension in increasing order, the entropy or number of the non-trivial points of the persistence diagram of the window's own delay embedding - whatever padding other windows need, whatever the training series was, with or without caching. transform gives the same rows as transform_resample, and fit_transform_resample gives for the training series what fit followed by transform_resample gives. Windows with the same values get the same row, wherever and in whichever series they occur. Fitting does not depend on the labels; series shorter than a window raise ValueError, and using the pipeline before fitting raises NotFittedError.", "quantifier": "all series, labels, window sizes (at least 2) and strides, embedding parameters that fit a window, sets of homology dimensions, edge lengths and replacements of infinity, step names, caching or not, and all backends answering one list of points for each dimension", "why_tests_cant": "Tests run a pipeline on one series; alignment of labels, independence of padding and of the training series must hold for every series and every diagram the backend may return.", "anchors": ["gtda/time_series/embedding.py:SlidingWindow", "gtda/time_series/embedding.py:TakensEmbedding.transform", "gtda/homology/simplicial.py:VietorisRipsPersistence", "gtda/diagrams/features.py:PersistenceEntropy", "gtda/diagrams/features.py:NumberOfPoints", "gtda/pipeline.py:Pipeline"]}
{"id": "C78", "title": "Persistence landscapes are stable", "statement": "If the points of two diagrams can be matched to each other or to the diagonal at cost r (for the bottleneck or any Wasserstein exponent), then every value PersistenceLandscape returns for the two diagrams differs by at most r, whatever the training diagrams, number of layers and grid. Hence PairwiseDistance with the landscape metric and p = inf never exceeds the bottleneck or Wasserstein distance of the same diagrams, and for finite p it never exceeds it by more than the factor (n_layers * n_bins * step)^(1/p); the same holds for Amplitude. Optimal matchings always exist, so the distances compared with are well defined.", "quantifier": "all diagrams, all matchings between them, all training sets, numbers of layers and bins, grid points, exponents at least 1, numbers of jobs and all distance algorithms that do not underestimate the cost of an optimal matching", "why_tests_cant": "The bound compares two arbitrary diagrams through every possible matching and every layer at every grid point; tests can only sample perturbations.", "anchors": ["gtda/diagrams/representations.py:PersistenceLandscape", "gtda/diagrams/_metrics.py:landscapes", "gtda/diagrams/_metrics.py:landscape_distances", "gtda/diagrams/_metrics.py:landscape_amplitudes", "gtda/diagrams/distance.py:PairwiseDistance", "gtda/diagrams/features.py:Amplitude"]}
{"id": "C79", "title": "Results do not depend on the units and the origin of filtration values", "statement": "If all births and deaths, in training and in transformed diagrams, are replaced by a*v + c with a > 0 (other units, other origin), then BettiCurve returns the same curves; PersistenceLandscape and Silhouette return their values multiplied by a; HeatKernel and PersistenceImage, with the bandwidth multiplied by a (and the weight function given lifetimes in the new units), return their images divided by a^2. Amplitude and PairwiseDistance values are all multiplied by one factor that depends only on the metric: a for bottleneck and Wasserstein, a^(1/p) for Betti, a^(1+1/p) for landscape and silhouette, a^(2/p-2) for heat and persistence images.", "quantifier": "all training and transformed collections of finite diagrams, all a > 0 and c, metrics, exponents, bandwidths, weight functions, numbers of bins, layers and jobs, smoothing filters that keep the shape, and (for point distances) all exact matching algorithms", "why_tests_cant": "Equivariance relates the outputs of two runs for every input and every change of units; grids are refitted in the new units, so every grid, cell and layer has to correspond.", "anchors": ["gtda/diagrams/representations.py:BettiCurve", "gtda/diagrams/representations.py:PersistenceLandscape", "gtda/diagrams/representations.py:Silhouette", "gtda/diagrams/representations.py:HeatKernel", "gtda/diagrams/representations.py:PersistenceImage", "gtda/diagrams/features.py:Amplitude", "gtda/diagrams/distance.py:PairwiseDistance", "gtda/diagrams/_utils.py:_bin"]}
{"id": "C80", "title": "Scaler normalises by a summary of the amplitudes, whatever the metric", "statement": "Scaler.fit with any metric calls `function` on exactly the array Amplitude would return for the training diagrams and stores the result; with the default function it is the greatest amplitude, which is 0 only if all are. transform divides births and deaths by it and inverse_transform undoes that; dimensions are untouched. With a metric whose amplitude is a length (bottleneck, Wasserstein, landscape and silhouette with p = inf) and a function that commutes with changes of units, the scaled diagrams do not depend on the units of the input, and fitting again on the scaled diagrams gives scale 1. With finite p, landscape amplitudes are not lengths and the scaled diagrams do not have amplitude 1.", "quantifier": "all training collections, metrics and parameters, homogeneous functions, units, and diagrams to transform", "why_tests_cant": "The claims relate two fits, in all pairs of units and for all metrics; a test compares a few literals and one metric.", "anchors": ["gtda/diagrams/preprocessing.py:Scaler", "gtda/diagrams/_metrics.py:_parallel_amplitude", "gtda/diagrams/features.py:Amplitude"]}
{"id": "C81", "title": "GUDHI complexes answer from their construction and latest computation", "statement": "CubicalComplex and PeriodicCubicalComplex are usable exactly when built from dimensions and cells (and periodicities) without a file, or from an existing file alone; otherwise a message is printed and, for ever, sizes raise AttributeError and persistence is empty. After any sequence of calls, the answers of a cubical complex are determined by its data and the arguments of the most recent call of persistence. The methods of SimplexTree about the tree forward to the library whatever was computed; the questions about persistence change nothing, answer empty before a computation and afterwards from the most recent one, until the next. After a recomputation that cannot be started every later call of persistence and every question raises AttributeError, and nothing else leads there. Rips and witness complexes create fresh trees from the sources documented, and the homology transformers receive the library's diagram of the sample over the requested field.", "quantifier": "all histories of method calls, all arguments, all behaviours of the compiled libraries (including exceptions)", "why_tests_cant": "The claims are about every sequence of calls, including calls after a failure, and about libraries that may raise at any point.", "anchors": ["gtda/externals/python/cubical_complex_interface.py:CubicalComplex", "gtda/externals/python/periodic_cubical_complex_interface.py:PeriodicCubicalComplex", "gtda/externals/python/simplex_tree_interface.py:SimplexTree", "gtda/externals/python/rips_complex_interface.py:RipsComplex,SparseRipsComplex", "gtda/externals/python/cech_complex_interface.py:CechComplex", "gtda/externals/python/witness_complex_interface.py:WitnessComplex", "gtda/externals/python/strong_witness_complex_interface.py:StrongWitnessComplex", "gtda/homology/simplicial.py:_gudhi_diagram", "gtda/homology/cubical.py:_gudhi_diagram"]}
{"id": "C82", "title": "Bottleneck and Wasserstein distances are pseudo-metrics, zero exactly on the same off-diagonal points", "statement": "PairwiseDistance with metric 'bottleneck' or 'wasserstein', computed by a matching algorithm of relative accuracy delta, returns nonnegative entries. An entry is zero exactly when the two diagrams have the same off-diagonal points, with multiplicities, in that homology dimension. Symmetry and the triangle inequality hold up to the factor 1 + delta; with an exact algorithm the entries in every dimension, and their combinations of any order at least 1, are pseudo-metrics. Wasserstein distances decrease with the exponent and bottleneck distances are at most Wasserstein distances, up to 1 + delta.", "quantifier": "all collections of finite diagrams, all exponents >= 1 or infinite, all accuracies delta >= 0, all algorithms of that accuracy, all orders >= 1, all numbers of jobs", "why_tests_cant": "The triangle inequality ranges over all triples of diagrams and all matchings between them; composing optimal matchings through diagonal points is the heart of the argument and no sample of triples settles it.", "anchors": ["gtda/diagrams/distance.py:PairwiseDistance.transform", "gtda/diagrams/_metrics.py:bottleneck_distances,wasserstein_distances,_parallel_pairwise"]}
{"id": "C83", "title": "Pipelines with memory: caching is transparent, fits are isolated, and failed fits stop at the failing step", "statement": "For every program which creates estimators and pipelines (with or without memory, sharing estimators and cache locations in any way), fits them, replaces their steps and asks them questions, losing cached results at any points does not change any answer, any estimator or any pipeline. Unless a pipeline without memory uses one estimator in two steps, every fitting method gives the answer, and leaves the estimators in the states, that the method has on the estimators' states alone. A fit changes no other pipeline, and no estimator except its own ones: without memory those of its steps, with memory only the last one. When a fit raises, the steps before the failing one are fitted on the new data and the later ones are as before. If cloned estimators fit as the originals do, answers and fitted estimators are the same with and without memory.", "quantifier": "all programs (finite histories of creations, fits, questions, changes of estimators and losses of cached results), all families of estimators, all cache locations, all data and fit parameters, all states left by raising calls", "why_tests_cant": "Whether a result is loaded or computed depends on the whole history of calls, of shared cache locations and of lost cache entries; aliasing of estimators between pipelines ranges over all heaps.", "anchors": ["gtda/pipeline.py:Pipeline._fit,fit,fit_transform,fit_transform_resample,fit_predict,_fit_transform_one,_fit_transform_resample_one"]}
{"id": "C84", "title": "Rounding keeps scaled, filtered and sampled diagrams valid", "statement": "In floating-point arithmetic with rounding to nearest, Scaler's transform and inverse_transform never make a birth exceed a death, keep diagonal points on the diagonal and keep the order of values, and undo each other up to two roundings. Filtering keeps no point that lives at most epsilon and drops none that lives longer by more than a rounding; with epsilon 0 it keeps exactly the points off the diagonal. The values that landscapes and silhouettes take from a point are nonnegative, at most half its lifetime, zero for diagonal points, and exact up to 12 roundings. The samplings of vectorisations start and end at the least and greatest value, never decrease, stay between them and are exact up to 12 roundings.", "quantifier": "all binary formats with gradual underflow and precision > 3 (binary64, binary32, ...), all births, deaths, scales and cutoffs, all numbers of bins up to 2^prec / 8", "why_tests_cant": "Rounding errors depend on every bit of the inputs; order preservation under rounding has to hold for all pairs of floating-point numbers.", "anchors": ["gtda/diagrams/preprocessing.py:Scaler.transform,Scaler.inverse_transform", "gtda/diagrams/_utils.py:_filter,_bin", "gtda/diagrams/_metrics.py:landscapes"]}
{"id": "C85", "title": "Covers computed in floating-point arithmetic contain every number", "statement": "With rounding to nearest, the limits of OneDimensionalCover are those of the exact cover up to 12 u (n^2 L + m), where u is the unit roundoff, n the number of intervals, L their length and m the greatest absolute value. If overlap_frac * (max - min) is at least 256 n^2 u m, every number is in a set of a uniform cover. Every sample is in a set of a balanced cover if overlap_frac is at least 256 n^2 u and 256 n^2 u times the number of distinct values is at most 1. Without the condition samples may be in no set.", "quantifier": "all binary formats with gradual underflow and precision > 3, all ranges of data, all numbers of intervals and overlaps meeting the stated conditions", "why_tests_cant": "Whether neighbouring intervals still overlap after a dozen roundings depends on all bits of the range of the data; the bound must hold for all of them.", "anchors": ["gtda/mapper/cover.py:OneDimensionalCover._cover_limits,_find_interval_limits,_transform,_fit_transform_balanced"]}
{"id": "C86", "title": "Mapper depends neither on the order of the samples nor on the unit of the filter values", "statement": "Rearranging the samples (data and filter values alike, or rows and columns of a distance matrix) gives the same Mapper graph up to the numbering of samples and nodes: nodes correspond one to one with the same interval and the same samples, the same nodes are joined by edges with the same weights and the same stored samples, provided that the clusterer groups samples independently of their order; the schedules of the parallel clustering may differ. Measuring the filter values in another unit (a positive affine map for a uniform cover, any increasing map for a balanced cover) changes neither the sets of a cover, of its fit_transform nor of transform on further data, nor the Mapper graph or the exception raised; fitted limits are the old ones in the new unit. The same holds for each column of a CubicalCover.", "quantifier": "all data, filter values, rearrangements, order-independent clusterers, schedules, covers, units and (for units) nerve parameters", "why_tests_cant": "Every permutation of every data set and every change of unit must leave the graph unchanged; tests compare a few.", "anchors": ["gtda/mapper/pipeline.py:make_mapper_pipeline", "gtda/mapper/cover.py:OneDimensionalCover,CubicalCover", "gtda/mapper/cluster.py:ParallelClustering", "gtda/mapper/nerve.py:Nerve.fit_transform"]}
{"id": "C87", "title": "A successful fit forgets everything that happened to the object before", "statement": "Whatever was done with an estimator before (other hyperparameters, fits that succeeded, fits that raised, calls of its methods), a call of fit raises exactly when it would raise on a new estimator with the same hyperparameters and the same data, with the same exception; and once it has succeeded, every later history of calls, fits, changes of hyperparameters and reads of documented fitted attributes shows the same values and exceptions as on that new estimator.", "quantifier": "all 51 estimator classes, all meanings of the numerical calls, all earlier and later histories, hyperparameters and data", "why_tests_cant": "A stale attribute only shows after particular histories of fits; the histories are unbounded and tests fit new objects.", "anchors": ["gtda/**:fit", "gtda/**:transform", "gtda/mapper/cluster.py:FirstSimpleGap,FirstHistogramGap"]}
{"id": "C88", "title": "A fit that raises does not disturb an object that was fitted before", "statement": "After a successful fit, any number of calls of fit that raise change nothing to what the methods of the object return later. This holds under any change of hyperparameters for 27 classes, and as long as the hyperparameters are not changed for 9 more; it fails for 12 classes (StandardFeatures, PairwiseDistance, Amplitude, ComplexPolynomial, the five sampled representations and three image filtrations), where the failed fit leaves the object unable to transform data it transformed before.", "quantifier": "all classes listed, all meanings of the numerical calls, all histories, hyperparameters and data", "why_tests_cant": "The exception can come from any point of any fit after any history; tests do not use an object after a fit raised.", "anchors": ["gtda/**:fit", "gtda/**:transform"]}
{"id": "C89", "title": "Methods raise NotFittedError before a fit has succeeded and never lack an attribute afterwards", "statement": "As long as no call of fit has succeeded on an object (none was made, or all raised), its methods raise NotFittedError; this holds for 21 classes and fails for the image transformers, whose failed fit leaves n_dimensions_ behind, so that transform goes on or raises AttributeError. Once a fit has succeeded, no method of any of the 51 classes ever raises NotFittedError, AttributeError or UnboundLocalError for something that fit should have set, whatever happens later; nor does fit itself.", "quantifier": "all classes, all meanings of the numerical calls, all histories, hyperparameters and data", "why_tests_cant": "It ranges over all branches of all fits and all histories of failed and successful fits.", "anchors": ["gtda/**:fit", "gtda/**:transform"]}
{"id": "C90", "title": "A transformer treats the samples of a collection one by one", "statement": "For a fitted transformer there is a function of one sample, the same for every collection and every n_jobs, that gives each row of the output: transforming batches separately and concatenating is the same as transforming them together, row i is what sample i alone gives, and reordering samples reorders rows; where samples can raise, a collection succeeds iff each sample does and raises what one of its samples raises. It holds for the diagram representations, features, amplitudes and distances, the image transformers, the time series, graph and rescaling transformers, Scaler, ForgetDimension, Entropy, Projection and Eccentricity of a precomputed matrix. It fails for Filtering (padding to the longest diagram of the collection) and for Eccentricity of points.", "quantifier": "all fitted transformers listed, all valid collections, all ways of splitting or reordering them, all n_jobs", "why_tests_cant": "It compares the outputs of all partitions and reorderings of all collections.", "anchors": ["gtda/diagrams/representations.py:*.transform", "gtda/diagrams/features.py:*.transform", "gtda/diagrams/distance.py:PairwiseDistance.transform", "gtda/diagrams/preprocessing.py:*.transform", "gtda/images/filtrations.py:*.transform", "gtda/images/preprocessing.py:*.transform", "gtda/time_series/*:*.transform", "gtda/graphs/*:*.transform", "gtda/point_clouds/rescaling.py:*.transform", "gtda/mapper/filter.py:*.transform"]}
{"id": "C91", "title": "Image filtrations respect reflections, axis permutations, activating pixels and neighbourhoods", "statement": "Reflecting an axis or permuting the axes of the images (and, for the height and radial filtrations, of the direction or center) and then filtering gives the reflected or permuted output, pixel by pixel, for dilation, erosion, signed distance, height, radial (Minkowski metrics) and density filtration. Activating more pixels can only lower dilation, height and radial values and only raise erosion, signed distance and density values, at every pixel. With the default n_iterations the dilation, erosion and signed distance values of neighbouring pixels differ by at most one.", "quantifier": "all shapes with one to three axes (two or three for height, radial and density), all binary images, all reflections and axis permutations, all directions, centers, radii and Minkowski exponents, all pairs of images ordered by their activated pixels, all n_jobs", "why_tests_cant": "It compares the outputs of all pairs of images related by a symmetry or by inclusion, at every pixel.", "anchors": ["gtda/images/filtrations.py:DilationFiltration", "gtda/images/filtrations.py:ErosionFiltration", "gtda/images/filtrations.py:SignedDistanceFiltration", "gtda/images/filtrations.py:HeightFiltration", "gtda/images/filtrations.py:RadialFiltration", "gtda/images/filtrations.py:DensityFiltration"]}
{"id": "C92", "title": "Amplitudes of two diagrams differ by at most their distance", "statement": "For Amplitude and PairwiseDistance fitted on the same diagrams with the same metric and parameters, the amplitudes of a transformed and a training diagram differ by at most the distance between them: in each homology dimension, and for any order >= 1 after combining the dimensions. It holds for all seven metrics; for bottleneck and Wasserstein the external algorithm may overestimate by a relative error, but must not underestimate.", "quantifier": "all metrics with valid parameters, all training and transformed collections on which the metric is defined, all orders >= 1, all n_jobs", "why_tests_cant": "It relates the outputs of two transformers on all pairs of collections.", "anchors": ["gtda/diagrams/features.py:Amplitude.transform", "gtda/diagrams/distance.py:PairwiseDistance.transform", "gtda/diagrams/_metrics.py:_parallel_amplitude", "gtda/diagrams/_metrics.py:_parallel_pairwise"]}
{"id": "C93", "title": "Constructors, get_params, set_params and clone", "statement": "For each of the 57 estimator classes, a constructor call that Python accepts stores every argument, or its default, unchanged under the parameter's name, sets nothing else and validates nothing; any other call is a TypeError. The documentation lists exactly these parameters, and a parameter left out has its documented default. Whatever was done to an object since, get_params returns its parameters in alphabetical order with their current values, set_params overwrites exactly the named ones (ValueError at the first unknown name), and clone returns the object the constructor builds from the current parameters, without the fitted attributes. fit and the other methods neither bind an attribute named like a parameter nor read one that the constructor does not take.", "quantifier": "all estimator classes, all positional and keyword arguments, all histories of set_params and of attribute writes, all parameter values", "why_tests_cant": "The calls, values and histories are unbounded; a test checks a few parameter values of one class.", "anchors": ["gtda/**/*.py:__init__ of every BaseEstimator subclass", "gtda/local_homology/simplicial.py:LocalVietorisRipsBase.__init__", "gtda/images/filtrations.py:DensityFiltration", "gtda/graphs/geodesic_distance.py:GraphGeodesicDistance"]}
{"id": "C94", "title": "Image features do not depend on the orientation of the images", "statement": "If all images, those of fit and those of transform, are reflected along an axis or get their axes permuted in the same way, then non-periodic CubicalPersistence gives the same diagrams up to the order of the rows, padding included, and persistence entropy, numbers of points, Betti curves and persistence landscapes of them are exactly the same, whatever n_jobs. So are the features of a pipeline that starts with DilationFiltration, ErosionFiltration or SignedDistanceFiltration of binary images. More generally these features do not depend on the order of the rows of the diagrams, neither in fit nor in transform.", "quantifier": "all collections of images of any shape (binary images of one to three axes with a filtration), all symmetries of the pixel grid, all parameters, all numbers of jobs, all GUDHI answers that are the same classes for a moved image", "why_tests_cant": "Images, shapes, symmetries and parameters are unbounded, and the result passes through three estimators with fitted state.", "anchors": ["gtda/homology/cubical.py:CubicalPersistence.fit", "gtda/homology/cubical.py:CubicalPersistence.transform", "gtda/homology/_utils.py:_postprocess_diagrams", "gtda/images/filtrations.py:DilationFiltration, ErosionFiltration, SignedDistanceFiltration", "gtda/diagrams/features.py:PersistenceEntropy, NumberOfPoints", "gtda/diagrams/representations.py:BettiCurve, PersistenceLandscape"]}
{"id": "C95", "title": "What an image pipeline computes", "statement": "A pipeline of DilationFiltration, ErosionFiltration or SignedDistanceFiltration, CubicalPersistence and PersistenceEntropy or NumberOfPoints, fitted on binary images X, gives for binary images Y of the same shape one row for each image, in order: for each homology dimension, in increasing order, the feature of the non-trivial classes GUDHI gives for the distances of that image alone. The only thing that depends on the values of X is the number that replaces infinite deaths: infinity_values or else the largest filtration value over X.", "quantifier": "all binary images of one to three axes, all parameters of the three estimators, all numbers of jobs, all GUDHI answers whose births and deaths are pixels or infinite", "why_tests_cant": "Shapes, images and parameters are unbounded; tests of single estimators do not see the composition.", "anchors": ["gtda/images/filtrations.py:DilationFiltration, ErosionFiltration, SignedDistanceFiltration", "gtda/homology/cubical.py:CubicalPersistence", "gtda/diagrams/features.py:PersistenceEntropy, NumberOfPoints", "gtda/pipeline.py:Pipeline"]}
{"id": "C96", "title": "What fit keeps of the training diagrams", "statement": "PersistenceEntropy and NumberOfPoints keep only the homology dimensions of the training diagrams. BettiCurve, PersistenceLandscape, Silhouette, HeatKernel and Amplitude (every metric but 'persistence_image') keep only those and, for each dimension, the least and greatest birth or death; PersistenceImage and the 'persistence_image' amplitude keep the least and greatest birth and lifetime. Training collections that agree on these give equal outputs, or the same error, on every input. In particular the order of the training diagrams and repetitions of them do not matter.", "quantifier": "all pairs of training collections with these extents in common, all inputs to transform (also invalid ones), all parameters and numbers of jobs", "why_tests_cant": "A test compares a few training collections and a few inputs; the claim is about all of them.", "anchors": ["gtda/diagrams/_utils.py:_bin", "gtda/diagrams/representations.py:BettiCurve, PersistenceLandscape, Silhouette, HeatKernel, PersistenceImage (fit)", "gtda/diagrams/features.py:Amplitude, PersistenceEntropy, NumberOfPoints"]}
{"id": "C97", "title": "The logs of interactive Mapper plots", "statement": "After any history of opening interactive plots and changing their parameters, the log of a plot shows, newest first, exactly the messages since the plot was opened or one of its parameters was last changed, and its parameters are marked valid exactly when the last change went well. With one plot in the process, the log tells about the last change only and has an error exactly when the parameters are marked invalid. (With several plots each log also shows the messages of the others.)", "quantifier": "all histories of openings and parameter changes of any number of plots, all outcomes and tracebacks", "why_tests_cant": "Histories and numbers of plots are unbounded, and the widgets need a notebook.", "anchors": ["gtda/mapper/utils/_logging.py:OutputWidgetHandler", "gtda/mapper/visualization.py:MapperInteractivePlotter.plot"]}
{"id": "C98", "title": "The text and the hash of an interval", "statement": "str of an Interval shows [ or ] at exactly the ends that belong to it, and different intervals have different texts. Evaluating repr of an Interval gives an interval with the same ends and sides exactly when both ends are finite. Equal ends and sides give equal hashes.", "quantifier": "all intervals the constructor accepts, all ways to write numbers that tell numbers apart and contain no comma or closing bracket", "why_tests_cant": "All pairs of intervals, all numbers.", "anchors": ["gtda/utils/intervals.py:Interval.__hash__, __repr__, __str__"]}
{"id": "C99", "title": "What older and newer values change in the transform of a time series", "statement": "Putting older values before a series leaves its sliding windows, its Takens vectors (SingleTakensEmbedding, TakensEmbedding with ensure_last_value), the labels of its windows and its stationarized values as they were: they are the last ones of the new output. Appending newer values keeps the windows as the first ones of the new output if and only if their number is a multiple of stride; the vectors of TakensEmbedding without ensure_last_value and the rows kept by Resampler always stay.", "quantifier": "all series and all values put before or after, all sizes, strides, delays, dimensions and periods", "why_tests_cant": "All series and all extensions of them.", "anchors": ["gtda/time_series/embedding.py:SlidingWindow, SingleTakensEmbedding, TakensEmbedding", "gtda/time_series/preprocessing.py:Resampler, Stationarizer"]}
{"id": "C100", "title": "What the plots of preprocessed persistence diagrams show", "statement": "After Filtering.fit(X), plot(transform(Y), sample) draws one trace per filtered dimension, in increasing order, whose markers are exactly the points of Y[sample] of that dimension that live longer than epsilon, in their order and with their exact coordinates in the hover texts: neither padding points nor the other dimensions are drawn. After Scaler.fit the plot shows the off-diagonal points of the dimensions of X[0] with coordinates divided by the scale; after ForgetDimension it shows all off-diagonal points in one trace. A negative sample counts from the end, a sample out of range is an IndexError, default dimensions before fit are an AttributeError, and explicit dimensions override the fitted ones.", "quantifier": "all training and transformed collections with finite births, all epsilon >= 0, all scales > 0, all samples", "why_tests_cant": "All diagrams, sample numbers and thresholds.", "anchors": ["gtda/diagrams/preprocessing.py:Filtering.plot, Scaler.plot, ForgetDimension.plot", "gtda/homology/simplicial.py:plot", "gtda/homology/cubical.py:CubicalPersistence.plot", "gtda/plotting/persistence_diagrams.py:plot_diagram"]}
{"id": "C101", "title": "The picture of an image and the picture of its point cloud agree", "statement": "plot of a collection of two-dimensional images shows pixel (r, c) in column c and, with the default origin, in row r from the top; with origin='lower' the picture is mirrored top to bottom. The plot of the point cloud ImageToPointCloud makes of the same image has exactly one marker at each activated pixel of that picture and no other marker, so the cloud is neither flipped nor rotated.", "quantifier": "all collections of two-dimensional images, samples (also negative) and numbers of jobs", "why_tests_cant": "All shapes and pixel values.", "anchors": ["gtda/images/preprocessing.py:ImageToPointCloud.transform, plot, Binarizer.plot, Inverter.plot, Padder.plot", "gtda/images/filtrations.py:plot", "gtda/plotting/images.py:plot_heatmap", "gtda/plotting/point_clouds.py:plot_point_cloud"]}
