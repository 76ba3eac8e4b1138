# Formal model of giotto-tda in Rocq (Coq 8.16.1)

## Approach

* Every modelled Python function is a total Gallina function in a `*Model.v` file, mirroring the
  source branch by branch, with a comment citing file and lines. Exceptions are values (`Np.res`),
  loops are structural recursions or folds, mutable estimators are state machines over records,
  parallel execution is either `gen_even_slices` followed by concatenation (for every `n_jobs`) or an
  interleaving of task events (`MetaModel.v`).
* Library calls (numpy, scipy, scikit-learn, joblib, igraph, gudhi, ripser, flagser) are either small
  functions in `Np.v` / `RNp.v` / `Nd.v` / the model files, marked "(external)" in their comment, or
  universally quantified parameters of the theorems.
* `*Spec.v` files hold specifications which do not mention the model; `*Proofs*.v` files hold lemmas;
  `*Thms*.v` files hold the property theorems, examples showing that their hypotheses are met by
  non-trivial inputs, and `Print Assumptions`.
* Floats are modelled exactly: rationals `Qc` with NaN and infinities (`fl`), or reals `R` (with NaN
  and infinities, `xr`) where roots and logarithms are needed. Rounding is not modelled.
* If the code violates the English claim, a `..._refuted` theorem proves it of the model, next to the
  part which does hold. A theorem covering a part of a property is called `..._partial`.
* `seeded/LOG.jsonl` records the wrong programs tried against the theorems.

## Plan and proof method per property

| id | modelled | proof |
|----|----------|-------|
| C01-C04 | `SlidingWindow`, `SingleTakensEmbedding`, `TakensEmbedding`, index arithmetic and Python slices | element-wise characterisation, all n/size/stride; refutations at size=1, dimension=1 |
| C05-C06 | `Labeller` | alignment by arithmetic; classes by a discrete crossing argument on thresholds |
| C07 | `Resampler`, `Stationarizer` | slice characterisation |
| C08 | optimal-parameter search, scores abstract | argmin characterisation |
| C09-C10 | Pearson dissimilarity, permutation entropy over R | Cauchy-Schwarz with equality case; Gibbs' inequality, counting permutations |
| C11-C13 | `_postprocess_diagrams`, `_subdiagrams`, `check_diagrams` | list invariants, refinement to a filter specification |
| C14-C16 | weak alpha CSR rows, cubical attribute, flagser padding | prefix-sum invariant; refutations |
| C17-C19 | `_filter`, `Scaler`, `ForgetDimension` | refinement, field algebra |
| C20-C24, C31 | vectorisations and amplitudes | counting and order-statistics lemmas |
| C25-C26 | `_parallel_pairwise`, `_parallel_amplitude`, even slices | slices partition the range; symmetric closure |
| C27-C30 | entropy, counts, polynomial, bins | real analysis, polynomial induction |
| C32-C39 | image transformers on n-dimensional index sets | iterated dilation = taxicab distance by induction on iterations |
| C40-C49 | Mapper: covers, clustering bookkeeping, nerve, gaps, parameters | list/set characterisations, termination measures |
| C50-C53 | `Interval`, `validate_params`, `check_diagrams`, `Pipeline` | decision procedures against predicates, induction on steps |
| C54-C55, C63 | graphs, geodesic distances, rescalings | functional specifications, shortest paths as minima over walks |
| C56-C57 | curves: derivative, features | functional specifications |
| C58-C59 | local homology, histories of fit and set_params | cone matrices; invariants over histories |
| C60 | `CollectionTransformer`, `ListFeatureUnion` | invariant over all schedules of clone/run events |
| C61-C62 | `check_point_clouds`, persistent homology transformers end to end | composition of the above |
| C64-C65 | Mapper filters, callables and methods as transformers | rows of the output against small relational specifications; exact condition under which values are kept |
| C66-C67 | Mutual information, false nearest neighbours, full Takens search | histogram and score written out over R; equality with the information of the joint counts, Gibbs' inequality for sign and equality case; count of positions through slices and rolls |
| C68-C71 | Plots | figures as data; contents against relational specifications of what is shown where; uniqueness of the fitted grids links a plot to the specification of the vectorisation |
| C73 | Colours | interpolation against a relational specification (color_at), uniqueness of rounding; consequences by the specification alone |
| C72 | Static Mapper plots | figure as data against a relational specification (figure_shows); colour features by an inductive relation; menu choices as histories; composed with the nerve (C45) |
| C74 | Interactive Mapper plots | state machine of widget changes; invariant over histories relating parameters, graph and figure to the static plot of C72; history independence |
| C75 | Nearest neighbour graphs | relational specification up to ties, over an arbitrary search; determined by counting closer points if distances differ; composed with C61 and C63 |
| C76 | Labels of the gap clusterers | invariant of the splitting loop (the heap holds the clusters after so many merges); induction over merges for chains; uniqueness of heights by counting classes |
| C77 | A time series pipeline, end to end | composition of the theorems on windows, embeddings, diagrams, features and pipelines; padding lies on the diagonal, so it does not count |
| C78 | Persistence landscapes are stable | counting argument: if the k-th value of one diagram exceeded that of the other by more than r, k + 1 tents above it would be matched to k + 1 tents above the other's; existence of optimal matchings by finiteness |
| C79 | Results do not depend on the units and the origin | the fitted grids are determined by their specification, so the grids of the moved diagrams are the moved grids; counts, tents, weights and rasters commute with the move, norms are homogeneous |
| C80 | Scaler normalises by a summary of the amplitudes | the amplitude theorems (closed form, homogeneity under changes of units) and a direct proof for np.max |
| C81 | GUDHI complexes answer from their construction and latest computation | state machines over arbitrary libraries; invariants over all histories of calls |
| C82 | Bottleneck and Wasserstein distances are pseudo-metrics, zero exactly on the same off-diagonal points | composition and reversal of matchings, Minkowski; monotonicity of norms in the exponent |
| C83 | Pipelines with memory: caching is transparent, fits are isolated, and failed fits stop at the failing step | heap of estimators with stores of cached results (CacheModel.v); simulation between programs with and without losses, refinement of PipeModel.v |
| C84-C85 | Rounding: scaling, filtering, sampling, covers | the formulas of the code with a rounding after every operation (RndModel.v), Flocq's formats with gradual underflow; monotonicity of rounding and forward error analysis |
| C86 | Mapper: order of samples, units of filter values | the Mapper model of C42-C47 run twice; the covers depend on the set of values only, clusters and nodes are matched through a shared sample |
| C87 | fit forgets the past | fit and the methods of 51 classes as programs of a small language (attributes read and written, order, points that can raise) under every meaning of the numerical expressions; a definite-assignment analysis, proved sound in FitAna.v and computed on each class |
| C88 | failed fits are harmless | the same programs; two further analyses (no raise after a write; lockstep of two runs with the same hyperparameters), refutations in a concrete world |
| C89 | NotFittedError before, no missing attribute after | the same programs and analyses |
| C90 | samples are treated one by one | the transform models of all these classes; BatchSpec.v says that one function of a sample gives all rows, BatchThms.v derives what the user sees (batches, single samples, orders) and BatchThms.v, BatchThms2.v prove it class by class |
| C91 | symmetry, monotonicity and neighbourhoods of image filtrations | the models of the six filtrations (ImgModel.v, ImgModel2.v); ImgSymSpec.v defines moved images, grid symmetries and images with more activated pixels; ImgSymThms*.v prove that reflections and axis permutations are grid symmetries, and transport and compare the outputs pixel by pixel |
| C92 | amplitudes are 1-Lipschitz for the distance | the models of Amplitude and PairwiseDistance (MetricModel.v); AmpLipThms.v uses Minkowski's inequality for curves and the triangle inequality of optimal matchings with the empty diagram |
| C93 | constructors and the parameter protocol | CtorTypes.v: Python's argument binding, constructor bodies as assignments and super() calls, sklearn's get_params / set_params / clone; CtorModel.v: the signature and body of all 57 constructors; CtorSpec.v: the documented parameters and defaults; CtorThms.v, CtorThms2.v by induction on calls and histories; CtorThms3.v links the methods of FitModel.v |
| C94 | image features and orientation | ImgFlowModel.v: the pipeline filtration, cubical persistence, scalar feature; ImgFlowSpec.v: what is assumed of GUDHI, reordered diagrams; ImgFlowThms.v: features and fitted grids do not depend on row order; ImgFlowThms2.v: post-processing of the same classes gives the same rows; ImgFlowThms3.v, ImgFlowThms4.v: features and pipelines; ImgFlowThms5.v: a stand-in for GUDHI and examples |
| C95 | what an image pipeline computes | ImgFlowModel.v; ImgFlowSpec2.v: the value of a filtration at a pixel, the value for infinite deaths, the row of an image; ImgFlowThms6.v from the specifications of the steps (C32-C34, C11, C25, C28), ImgFlowThms7.v an example |
| C96 | what fit keeps of the training diagrams | DiagModel.v, VecModel.v, MetricModel.v, FeatModel.v; FitExtSpec.v: same labels, same least and greatest value; FitExtThms.v: the sampled grids are determined by the extents (fit_ok), and what follows does not read X |
| C97 | logs of interactive Mapper plots | LogModel.v: handlers of the shared logger, events open / change; LogSpec.v: messages of an event; LogThms.v by induction on the history |
| C98 | text and hash of an interval | IvTextModel.v: __repr__, __str__, __hash__, eval, sets; IvTextThms.v: number texts as a parameter, cutting at the comma |
| C99 | older and newer values of a time series | TSModel.v; the statements use ++ on series and outputs only; StreamThms.v from the specifications C01-C04, C07 and division with remainder |
| C100 | plots of preprocessed diagrams | WrapModel.v (the plot methods), DiagModel.v, PlotModel.v; spec WrapSpec.v (which points each trace shows); WrapThms.v composes the specifications of filtering (C17) and of the figure (C68) |
| C101 | pictures of images and their point clouds | PicModel.v (the plot methods), ImgModel.v, PlotModel.v; spec PicSpec.v (where plotly draws entries and markers); PicThms.v from the specification of ImageToPointCloud (C39) |

## Trusted base

* Coq's kernel (8.16.1), `coqc` and the standard library.
* The definitions of floating-point formats and rounding (`FLT_exp`, `round`, `ZnearestE`, `bpow`) of Flocq, used by
  RndSpec.v; Flocq adds no axioms to those of the standard library.
* The assumptions listed for each theorem in the appendix. They are all axioms of Coq's standard
  library: `ClassicalDedekindReals.sig_not_dec`, `ClassicalDedekindReals.sig_forall_dec`,
  `FunctionalExtensionality.functional_extensionality_dep` (all three used by the construction of the
  real numbers) and `Classical_Prop.classic`.
* Loading `Coq.Reals` and `ssreflect`-based parts of the standard library brings in modules sealed by
  a signature, whose fields are constants without a body for a checker of the compiled files. They are
  not assumptions of any theorem but are listed here for completeness:
  `Coq.Reals.Rdefinitions.RbaseSymbolsImpl` (`R`, `R0`, `R1`, `Rplus`, `Rmult`, `Ropp`, `Rlt`,
  `Rabst`, `Rrepr`, `Rquot1`, `Rquot2`, `R0_def`, `R1_def`, `Rplus_def`, `Rmult_def`, `Ropp_def`,
  `Rlt_def`), `Coq.Reals.Rdefinitions.RinvImpl` (`Rinv`, `Rinv_def`) and
  `Coq.ssr.ssrunder.Under_rel` (`Under_rel`, `Under_relE`, `Under_rel_from_rel`, `Over_rel`,
  `over_rel`, `over_rel_done`, `under_rel_done`).
* The reading of /repo, that is, that the definitions in the `*Model.v` files describe the code they
  cite, and of the external libraries, where a definition is marked as external.
* The specifications in the `*Spec.v` files and the statements of the theorems.

No axioms, parameters, functors or module types are declared; section variables are discharged.

## What is modelled

| source | model | not modelled |
|--------|-------|--------------|
| `gtda/base.py` | `TransformerResamplerMixin` (PipeModel.v), `PlotterMixin` (PlotModel.v) | |
| `gtda/mapper/utils/_visualization.py` lines 495-552 (`ColorModel.v`) | hexadecimal parsing and printing, colour interpolation | exact rationals; signs, blanks and underscores accepted by int(s, 16) |
| `gtda/mapper/utils/_visualization.py` lines 1-492, `gtda/mapper/visualization.py` lines 22-188 (`MplotModel.v`) | rounding, sizes, texts, colour features, statistics, menu, static figure | igraph layout, pandas and numpy column selection as primitives; of plotly_params only hover label colour and colour scale |
| `gtda/mapper/visualization.py` lines 190-760 (`IplotModel.v`) | widgets, handler of changes, validation box, figure updates | ipywidgets (a widget accepts values of its type and reports other values), plotly batch updates (kept or not, a parameter); logging and cloning of the pipeline left out |
| `gtda/graphs/kneighbors.py` (`KnnModel.v`) | KNeighborsGraph | sklearn's kneighbors_graph for dense inputs around an external search for smallest entries; distances external; sparse inputs external |
| `gtda/mapper/cluster.py` lines 274-612 (`CutModel.v`) | _build_tree, fit of both clusterers with attributes, scikit-learn's _hc_cut | tree builders external, heapq by contract, memory |
| `gtda/time_series/embedding.py`, `homology/simplicial.py`, `diagrams/features.py` as steps of `pipeline.py` (`FlowModel.v`) | fit, transform, resample and clone of the four estimators as one type of steps, over the existing models | ripser external |
| `gtda/diagrams/preprocessing.py` Scaler (`ScalerModel.v`) | fit for every metric and function, transform, inverse_transform over the reals | validation of parameters; diagrams passed to transform have finite entries |
| `gtda/externals/python/*` (`ExtTypes.v`, `ExtModel.v`) | constructors, every method and `__del__` of the cubical complexes and SimplexTree, Rips, sparse Rips, Cech and witness complexes, and their callers `_gudhi_diagram` | the compiled modules, which are arbitrary functions; a cubical complex is not changed by a computation; vertices are integers |
| `gtda/diagrams/preprocessing.py` line 295 and 316, `_utils.py` lines 92 and 157-162, `_metrics.py` lines 73-75, `gtda/mapper/cover.py` lines 153-337 (`RndModel.v`) | the formulas with rounding after every operation | overflow; numpy.linspace external |
| `gtda/pipeline.py` | PipeModel.v (states), CacheModel.v (objects, `memory`, exceptions half-way) | joblib's storage (a list of arguments and results per location), messages, `__getitem__` |
| `gtda/time_series/embedding.py`, `_utils.py` | TSModel.v, TakensModel.v | numpy.histogram2d, mutual_info_score over exact reals; scikit-learn nearest neighbours (any function) |
| `gtda/time_series/preprocessing.py`, `target.py` | TSModel.v | |
| `gtda/time_series/features.py`, `multivariate.py` | StatModel.v | arrays with dimensions of length 0 |
| `gtda/diagrams/_utils.py`, `preprocessing.py` | DiagModel.v, VecModel.v | |
| `gtda/diagrams/_metrics.py`, `distance.py`, `representations.py` | VecModel.v, MetricModel.v | bottleneck and Wasserstein distances (GUDHI/hera, arbitrary functions); Gaussian filtering (arbitrary linear filter); plotting |
| `gtda/diagrams/_features.py`, `features.py` | FeatModel.v, MetricModel.v | |
| `gtda/homology/_utils.py` | DiagModel.v | |
| `gtda/homology/simplicial.py`, `cubical.py` | HomModel.v | ripser, flagser, GUDHI (arbitrary functions); Delaunay triangulation |
| `gtda/images/*.py` | ImgModel.v, ImgModel2.v | plotting |
| `gtda/mapper/cover.py`, `utils/_cover.py` | CoverModel.v | type checks (C51), warnings |
| `gtda/mapper/cluster.py`, `utils/_cluster.py` | MapperModel.v, GapModel.v, CutModel.v | the linkage tree (scikit-learn) |
| `gtda/mapper/nerve.py` | MapperModel.v | igraph's representation |
| `gtda/mapper/pipeline.py` | MapperModel.v, MParModel.v | memory, logging |
| `gtda/mapper/utils/_list_feature_union.py` | MetaModel.v | stacking of sparse results (the method is overridden) |
| `gtda/mapper/filter.py`, `utils/pipeline.py`, `utils/decorators.py` | FilterModel.v | warnings; results of callables with more than one axis |
| `gtda/metaestimators/collection_transformer.py` | MetaModel.v | parallel backends other than as an interleaving of tasks |
| `gtda/graphs/transition.py`, `geodesic_distance.py` | GraphModel.v | |
| `gtda/point_clouds/rescaling.py` | RescaleModel.v | metrics (arbitrary functions) |
| `gtda/curves/*.py` | CurveModel.v | |
| `gtda/local_homology/simplicial.py` | LocalModel.v | neighbour searches (specified, scikit-learn) |
| `gtda/utils/intervals.py` | IntervalModel.v | |
| `gtda/utils/validation.py` | ValidModel.v, DiagModel.v | messages and warnings |
| `gtda/externals` | ExtModel.v (python interfaces) | C++ bindings and third-party code |
| `gtda/utils/_docs.py`, `gtda/mapper/utils/_logging.py`, `_version.py` | none | docstrings, logging |
| `gtda/plotting`, `plot` methods of `gtda/diagrams/representations.py` and `gtda/curves/preprocessing.py` | PlotModel.v: coordinates, names, hover texts, axis ranges and orientation handed to plotly | titles, colours, sizes, `plotly_params` |
| `gtda/mapper/visualization.py` | MplotModel.v: static plots; IplotModel.v: interactive plots | logging widgets |


General simplifications: exact arithmetic (except RndModel.v, C84-C85); arrays are lists (of lists); NaN and infinite inputs only
where the code accepts them; messages, warnings, logging and running time are left out; integer
overflow and dtype conversion only where a property depends on them.

## Findings

Places where the code does not do what its documentation says, or fails in a way a user does not
expect, each proved of the model (theorem names with `refuted`, or part of the specification theorem;
see the notes in MANIFEST.json):

* SlidingWindow with size=1 yields no usable alignment of y (C02); SingleTakensEmbedding with dimension=1 likewise (C04); the Takens parameter search with max_dimension=1 (C08).
* Labeller with percentiles=[] (C06).
* Subdiagrams of collections with differing numbers of points per dimension are mixed up (C13); check_diagrams looks at the dimensions of the first sample only (C52); dimension -inf is an OverflowError.
* Filtering can return more rows than it was given (C17).
* n_bins=1 gives a NaN step size (C30); persistence images count diagonal points with a weight (C31); silhouettes with power > 8 may be NaN (C22); p-norms with order < 1 violate the triangle inequality (C25); the bottleneck amplitude of a diagram without points is a ValueError (C24).
* Normalised entropy can be negative, and an empty subdiagram has entropy 0 rather than the fill value (C27).
* ComplexPolynomial is a TypeError on some accepted inputs, and n_coefficients=None counts diagonal points (C29).
* Binarizer with a negative maximum is not monotone in the threshold, Inverter(max_value=False) is a TypeError (C38); Height and Radial filtrations of 1-dimensional images are an IndexError (C35, C36), Density a ValueError, also for radius=inf (C37).
* Balanced covers: fit_transform leaves limits of earlier fits, the documented right end is not the one used, and CubicalCover.fit_transform followed by transform is a NotFittedError (C42, C43, C59).
* Nerve: contract_nodes loses samples and gives self-loops (C46), no labels at all is a StopIteration (C45).
* The gap clusterers (C48), Interval (C50) and validate_params (C51) have several unexpected corner cases.
* WeakAlphaPersistence drops isolated vertices (C14); CubicalPersistence.periodic_dimensions_ has the wrong shape (C15); duplicate or empty homology_dimensions are accepted (C62).
* MapperPipeline: n_jobs is not reported by get_params, and get_params(deep=False) reports memory and verbose only (C49).
* Pipeline.resample ignores y, inverse_transform passes two arguments, fit_transform_resample may return None (C53).
* TransitionGraph ignores func_params, is not symmetric and has entries > 1 (C54).
* ConsistentRescaling uses the k-th smallest distance including the point itself, coincident points give non-finite values; ConsecutiveRescaling gives asymmetric matrices and is a TypeError on integer matrices (C55).
* GraphGeodesicDistance on an empty collection is an IndexError (C63).
* StandardFeatures: "identity" inside a list fails, None as parameters is an AttributeError, ragged outputs are misaligned (C57).
* Local homology: set_params is ignored by fit, fitting on few points lowers n_neighbors for good, radii=(0,0) keeps 0 despite the warning, n_neighbors=(0,0) is an AttributeError (C58, C59).
* CollectionTransformer: transformers without get_params are accepted with a warning, but every call fails; the empty collection is an IndexError (C60).
* PearsonDissimilarity has NaN on the diagonal for constant columns and for samples with one row (C09).
* Eccentricity with a negative exponent or -inf is 0 for every sample; a precomputed matrix need not be square (C64).
* Entropy returns NaN for a row of zeros, which any later step that checks its input rejects (C64).
* Projection: fit checks all columns of a data frame although transform deliberately ignores the unselected ones; columns are labels, not indices, for frames (C64).
* transformer_from_callable_on_rows stores all results in the type of the first row's result, so floats are truncated if the first result is an integer; callables with a parameter axis but no keepdims always raise TypeError (C65).
* method_to_transform: a class with its own fit_transform keeps it, so fit_transform is not fit followed by the new transform (C65).
* _false_nearest_neighbors: compares X[n-n'+k+dt] with X[neighbour of vector k+dt] instead of X[k+dt] with X[neighbour of k, +dt]; the number differs from the textbook count even for stride 1 (C66).
* takens_embedding_optimal_parameters: the delay n-1 has a single pair and mutual information 0, the least possible, so that with max_time_delay >= n-1 the search picks it (unless a smaller delay has 0) and raises ValueError (C67).
* plot_diagram: if the finite off-diagonal coordinates are all equal (e.g. the single point (0, inf)) the figure has extent zero and the infinite point is drawn on the diagonal (C68).
* PlotterMixin.transform_plot: sample=-1 slices X[-1:0], the empty collection, and fails (C69).
* plot_point_cloud: a cloud with one coordinate and dimension=None raises UnboundLocalError (C71).
* Derivative.plot: abscissae are range(n_channels) instead of range(n_bins), and channels=[c0, c1, ...] draws channels 0, 1, ... under the names of c0, c1, ... (C71).
* plot_betti_surfaces: the default samplings=None raises TypeError (C71).
* plot_static_mapper_graph, layout_dim=3 with several columns: if the first column's node colours vary and another column's are constant, ValueError (a constant first column only warns) (C72, static_plot_constant_column).
* plot_static_mapper_graph, layout_dim=3: the first menu entry does not reset the hover label colours, so choosing another column and then the first leaves the labels of the other (C72, static_menu_first_refuted).
* plot_static_mapper_graph: color_features is documented as ignored if node_color_statistic is an array; it is still applied, may raise, and overwrites the names in the menu (C72, array_ignores_features_refuted).
* MapperInteractivePlotter, layout_dim=3: a change leading to constant node colours is rejected although plot_static_mapper_graph only warns; graph_ and node_summaries_ are already replaced, figure_ is not (C74, interactive_constant_refuted).
* MapperInteractivePlotter, layout_dim=3: if the node colours of the initial graph are constant, hover labels stay white for all later graphs (C74, interactive_white_refuted).
* MapperInteractivePlotter: a float min_intersection gets a widget that triggers recomputation but its value is never passed to the pipeline (C74, interactive_min_intersection_refuted).
* MapperInteractivePlotter, layout_dim=3 with several colour columns: a change under which a later column becomes constant is rejected after the traces were updated, so the menu may belong to another graph (C74, interactive_menu_refuted).
* KNeighborsGraph(metric='precomputed'): the point itself is found by its distance, so with a diagonal that is not minimal the nearest neighbour of a point may be dropped; nothing checks the diagonal (C75, kng_diagonal_refuted).
* KNeighborsGraph(metric='precomputed'): infinite distances (e.g. from GraphGeodesicDistance) pass fit, and transform raises ValueError (C75, kng_infinite_refuted).
* FirstSimpleGap, FirstHistogramGap: a fit on a single sample leaves children_, n_leaves_ and distances_ of an earlier fit (or unset) (C76, single_sample_stale_refuted).
* FirstSimpleGap: identical samples (distance 0) all get different labels (C76, simple_gap_identical); with max_fraction < 1 the clusters may depend on the order of samples at equal distances (C76, simple_gap_ties_refuted).
* plot_static_mapper_graph: a boolean mask as color_features of an array gives menu entries that are all called True, or an IndexError when it keeps at least two columns and drops one (C72, static_mask_refuted).
* Scaler: function=None is accepted by the parameter validation, and fit then raises TypeError (C80, scaler_function_none)
* Scaler with a landscape metric and finite p: scaled diagrams have greatest amplitude s^(-1/p), where s is the scale, not 1 (C80, scaler_landscape_refit)
* externals: persistence_intervals_in_dimension is documented to return a 2D array, but has shape (0,) when there is no interval, and (1, 0) for CubicalComplex before a computation (C81, intervals_array_refuted)
* SimplexTree.persistence: when a computation exists and the next one cannot be started (e.g. persistence_dim_max is a string), the attribute pcohptr is gone and every later call of persistence or question raises AttributeError (C81, failed_recomputation_refuted)
* Pipeline without memory: an estimator object used in two steps is fitted twice, and transform then differs from fit_transform on the same data; with memory it does not (C83, shared_step_refuted)
* Pipeline without memory: pipelines sharing an estimator change each other's answers when fitted (C83, shared_pipeline_refuted)
* Pipeline: a fit that raises leaves a mixture of newly and previously fitted steps, without any sign (C83, failed_fit_refuted)
* OneDimensionalCover: with rounding, samples can be in no set of a fitted uniform cover, e.g. 2^53 + 2 of the data 2^53, 2^53 + 2, 2^53 + 4 with two intervals and any overlap up to 1/4; such samples are missing from a Mapper graph (C85, uniform_cover_refuted)
* np.linspace as used for samplings exceeds its greatest value for subnormal bin widths (C84, grid_subnormal_refuted)
* Nerve with contract_nodes=True: which samples survive depends on the order of the samples, because the merged vertex takes the attributes of the first node sent to it (C86, mapper_order_contract_refuted)
* FirstSimpleGap and FirstHistogramGap keep children_, n_leaves_ and distances_ of an earlier fit when fitted on one sample (C87, stale_tree_refuted)
* A fit that raises spoils StandardFeatures, PairwiseDistance, Amplitude, ComplexPolynomial, BettiCurve, PersistenceLandscape, HeatKernel, PersistenceImage, Silhouette, HeightFiltration, RadialFiltration and DensityFiltration objects fitted before: transform raises on data it accepted (C88, failed_fit_is_invisible_refuted)
* A fit that raises after a change of metric leaves the flag for precomputed distances of KNeighborsGraph and VietorisRipsPersistence changed (C88, failed_fit_with_other_params_refuted)
* Image transformers whose only fit raised on arrays with too many axes pass check_is_fitted: ImageToPointCloud.transform returns, the others raise AttributeError (C89)
* The row that Filtering returns for a diagram depends on the other diagrams of the collection (padding), so its output on a batch cannot be reused for a larger collection (C90, filtering_sample_by_sample_refuted)
* Documented defaults differ from the signature: GraphGeodesicDistance.directed (True, really False), RadialFiltration.radius (None, really inf), DensityFiltration.radius (1., really 3), KNeighborsLocalVietorisRips.n_neighbors ((10, 50), really (1, 2)), RadiusLocalVietorisRips.radii ((0., 1.), really (1, 2)) (C93, documented_defaults_refuted)
* Every call of MapperInteractivePlotter.plot adds a handler to the one module logger and none is removed: each interactive plot logs the messages and errors of all others (C97, log_of_own_plot_refuted)
* Interval is documented as immutable but its attributes can be assigned, and it defines __hash__ without __eq__: sets keep equal intervals apart and lose intervals that were changed (C98, interval_set_refuted, interval_immutable_refuted)

## Appendix: Print Assumptions for the theorems in MANIFEST.json

| property | theorem | file | assumptions |
|---|---|---|---|
| C01 | `sliding_window_transform_spec` | TSThms.v | closed under the global context |
| C01 | `slice_windows_spec` | TSThms.v | closed under the global context |
| C02 | `sliding_window_alignment` | TSThms.v | closed under the global context |
| C02 | `sliding_window_alignment_size2` | TSThms.v | closed under the global context |
| C02 | `sliding_window_alignment_size1_refuted` | TSThms.v | closed under the global context |
| C03 | `takens_embedding_spec` | TSThms.v | closed under the global context |
| C03 | `takens_collection_spec` | TSThms.v | closed under the global context |
| C03 | `takens_flatten_spec` | TSThms.v | closed under the global context |
| C04 | `single_takens_alignment` | TSThms.v | closed under the global context |
| C04 | `single_takens_alignment_dim2` | TSThms.v | closed under the global context |
| C04 | `single_takens_alignment_dim1_refuted` | TSThms.v | closed under the global context |
| C05 | `labeller_alignment` | TSThms.v | closed under the global context |
| C05 | `labeller_classification_alignment` | TSThms.v | closed under the global context |
| C06 | `labeller_classes` | TSThms.v | closed under the global context |
| C06 | `labeller_classes_sorted` | TSThms.v | closed under the global context |
| C06 | `labeller_empty_percentiles_refuted` | TSThms.v | closed under the global context |
| C07 | `resampler_alignment` | TSThms.v | closed under the global context |
| C07 | `stationarizer_alignment` | TSThms.v | closed under the global context |
| C08 | `takens_search_spec` | TSThms.v | closed under the global context |
| C08 | `takens_search_max_dimension_1_refuted` | TSThms.v | closed under the global context |
| C09 | `pearson_spec` | StatThms2.v | sig_not_dec, sig_forall_dec, functional_extensionality_dep |
| C09 | `pearson_dissimilarity` | StatThms2.v | sig_not_dec, sig_forall_dec, functional_extensionality_dep |
| C09 | `pearson_affine_invariant` | StatThms2.v | sig_not_dec, sig_forall_dec, functional_extensionality_dep |
| C09 | `pearson_no_samples` | ErrThms.v | closed under the global context |
| C10 | `permutation_entropy_spec` | StatThms.v | sig_not_dec, sig_forall_dec, functional_extensionality_dep, classic |
| C10 | `permutation_entropy_reorder` | StatThms.v | sig_not_dec, sig_forall_dec, functional_extensionality_dep, classic |
| C10 | `permutation_entropy_order` | StatThms.v | sig_not_dec, sig_forall_dec, functional_extensionality_dep, classic |
| C10 | `permutation_entropy_increasing` | StatThms.v | sig_not_dec, sig_forall_dec, functional_extensionality_dep, classic |
| C10 | `permutation_entropy_bounds` | StatThms.v | sig_not_dec, sig_forall_dec, functional_extensionality_dep, classic |
| C10 | `stable_argsort_ok` | StatThms.v | sig_forall_dec, functional_extensionality_dep |
| C100 | `filtering_plot_shows` | WrapThms.v | closed under the global context |
| C100 | `scaler_plot_shows` | WrapThms.v | closed under the global context |
| C100 | `forget_plot_shows` | WrapThms.v | closed under the global context |
| C100 | `preprocessor_plot_errors` | WrapThms.v | closed under the global context |
| C100 | `preprocessor_plot_explicit` | WrapThms.v | closed under the global context |
| C100 | `plot_negative_sample` | WrapThms.v | closed under the global context |
| C101 | `image_plot_shows` | PicThms.v | closed under the global context |
| C101 | `image_and_cloud_pictures_agree` | PicThms.v | closed under the global context |
| C101 | `lower_origin_mirrors` | PicThms.v | closed under the global context |
| C11 | `postprocess_preserves_points` | DiagThms.v | closed under the global context |
| C11 | `postprocess_rows_of_dimension` | DiagThms.v | closed under the global context |
| C12 | `postprocess_rectangular_valid` | DiagThms.v | closed under the global context |
| C13 | `postprocess_split_by_dimension` | DiagThms.v | closed under the global context |
| C13 | `subdiagrams_balanced_spec` | DiagThms.v | closed under the global context |
| C13 | `subdiagrams_mixes_samples_refuted` | DiagThms.v | closed under the global context |
| C13 | `subdiagrams_errors` | DiagThms.v | closed under the global context |
| C14 | `weak_alpha_spec` | HomThms.v | closed under the global context |
| C14 | `weak_alpha_isolated_spec` | HomThms.v | closed under the global context |
| C14 | `weak_alpha_duplicate_refuted` | HomThms.v | closed under the global context |
| C14 | `weak_alpha_last_isolated` | HomThms.v | closed under the global context |
| C15 | `cubical_fit_spec` | HomThms.v | closed under the global context |
| C15 | `periodic_dimensions_refuted` | HomThms.v | closed under the global context |
| C15 | `cubical_arguments_spec` | HomThms.v | closed under the global context |
| C15 | `cubical_spec` | HomThms.v | closed under the global context |
| C16 | `flagser_list_spec` | HomThms.v | closed under the global context |
| C16 | `flagser_spec` | HomThms.v | closed under the global context |
| C17 | `filtering_spec` | DiagThms.v | closed under the global context |
| C17 | `filtering_fit_transform_spec` | DiagThms.v | closed under the global context |
| C17 | `filtering_rectangular` | DiagThms.v | closed under the global context |
| C17 | `filtering_never_grows_refuted` | DiagThms.v | closed under the global context |
| C18 | `scaler_round_trip` | DiagThms.v | closed under the global context |
| C18 | `scaler_bottleneck_scale` | DiagThms.v | closed under the global context |
| C18 | `scaler_max_lifetime_is_two` | DiagThms.v | closed under the global context |
| C19 | `forget_dimension_spec` | DiagThms.v | closed under the global context |
| C19 | `forget_dimension_valid` | DiagThms.v | closed under the global context |
| C20 | `betti_curve_spec` | VecThms.v | closed under the global context |
| C20 | `betti_curve_ignores_diagonal` | VecThms.v | closed under the global context |
| C21 | `persistence_landscape_spec` | VecThms.v | closed under the global context |
| C21 | `landscape_layers_decreasing` | VecThms.v | closed under the global context |
| C21 | `persistence_landscape_ignores_diagonal` | VecThms.v | closed under the global context |
| C22 | `silhouette_spec` | MetricThms.v | sig_not_dec, sig_forall_dec, functional_extensionality_dep, classic |
| C22 | `silhouette_bounds` | MetricThms.v | sig_not_dec, sig_forall_dec, functional_extensionality_dep, classic |
| C22 | `silhouette_trivial` | MetricThms.v | sig_not_dec, sig_forall_dec, functional_extensionality_dep, classic |
| C22 | `silhouette_ignores_diagonal` | MetricThms.v | sig_not_dec, sig_forall_dec, functional_extensionality_dep, classic |
| C22 | `silhouette_trivial_refuted` | MetricThms.v | sig_not_dec, sig_forall_dec, functional_extensionality_dep, classic |
| C23 | `heat_kernel_spec` | VecThms.v | closed under the global context |
| C23 | `heat_antisymmetric` | VecThms.v | closed under the global context |
| C23 | `heat_kernel_ignores_diagonal` | VecThms.v | closed under the global context |
| C24 | `amplitude_spec` | MetricThms.v | sig_not_dec, sig_forall_dec, functional_extensionality_dep, classic |
| C24 | `amplitude_is_distance_to_trivial` | MetricThms.v | sig_not_dec, sig_forall_dec, functional_extensionality_dep, classic |
| C24 | `amplitude_is_optimal_matching` | MetricThms.v | sig_not_dec, sig_forall_dec, functional_extensionality_dep, classic |
| C24 | `amplitude_bounds_point_distance` | MetricThms.v | sig_not_dec, sig_forall_dec, functional_extensionality_dep, classic |
| C24 | `amplitude_ignores_diagonal` | MetricThms.v | sig_not_dec, sig_forall_dec, functional_extensionality_dep, classic |
| C24 | `bottleneck_amplitude_no_points` | MetricThms.v | sig_not_dec, sig_forall_dec, functional_extensionality_dep, classic |
| C25 | `pairwise_distance_spec` | MetricThms.v | sig_not_dec, sig_forall_dec, functional_extensionality_dep, classic |
| C25 | `pairwise_distance_pseudo_metric` | MetricThms.v | sig_not_dec, sig_forall_dec, functional_extensionality_dep, classic |
| C25 | `pairwise_distance_order_pseudo_metric` | MetricThms.v | sig_not_dec, sig_forall_dec, functional_extensionality_dep, classic |
| C25 | `pairwise_distance_order_triangle_refuted` | MetricThms.v | sig_not_dec, sig_forall_dec, functional_extensionality_dep, classic |
| C25 | `pairwise_point_distance_spec` | MetricThms.v | sig_not_dec, sig_forall_dec, functional_extensionality_dep, classic |
| C26 | `parallel_loop_spec` | VecThms.v | closed under the global context |
| C26 | `pairwise_distance_jobs` | MetricThms.v | sig_not_dec, sig_forall_dec, functional_extensionality_dep, classic |
| C26 | `amplitude_ignores_diagonal` | MetricThms.v | sig_not_dec, sig_forall_dec, functional_extensionality_dep, classic |
| C26 | `silhouette_ignores_diagonal` | MetricThms.v | sig_not_dec, sig_forall_dec, functional_extensionality_dep, classic |
| C26 | `betti_curve_ignores_diagonal` | VecThms.v | closed under the global context |
| C26 | `persistence_landscape_ignores_diagonal` | VecThms.v | closed under the global context |
| C26 | `heat_kernel_ignores_diagonal` | VecThms.v | closed under the global context |
| C26 | `persistence_image_ignores_diagonal_partial` | VecThms.v | closed under the global context |
| C26 | `persistence_entropy_ignores_diagonal` | FeatThms.v | sig_not_dec, sig_forall_dec, functional_extensionality_dep, classic |
| C26 | `number_of_points_ignores_diagonal` | FeatThms.v | closed under the global context |
| C26 | `image_jobs` | ImgThms2.v | sig_not_dec, sig_forall_dec, functional_extensionality_dep, classic |
| C27 | `persistence_entropy_spec` | FeatThms.v | sig_not_dec, sig_forall_dec, functional_extensionality_dep, classic |
| C27 | `entropy_bounds` | FeatThms.v | sig_not_dec, sig_forall_dec, functional_extensionality_dep, classic |
| C27 | `persistence_entropy_scale_invariant` | FeatThms.v | sig_not_dec, sig_forall_dec, functional_extensionality_dep, classic |
| C27 | `persistence_entropy_ignores_diagonal` | FeatThms.v | sig_not_dec, sig_forall_dec, functional_extensionality_dep, classic |
| C27 | `normalized_entropy_nonnegative_refuted` | FeatThms.v | sig_not_dec, sig_forall_dec, functional_extensionality_dep, classic |
| C28 | `number_of_points_spec` | FeatThms.v | closed under the global context |
| C28 | `number_of_points_ignores_diagonal` | FeatThms.v | closed under the global context |
| C29 | `complex_polynomial_spec` | FeatThms.v | sig_not_dec, sig_forall_dec, functional_extensionality_dep |
| C29 | `polynomial_vanishes_at_roots` | FeatThms.v | sig_forall_dec, functional_extensionality_dep |
| C29 | `complex_polynomial_ignores_diagonal` | FeatThms.v | sig_not_dec, sig_forall_dec, functional_extensionality_dep |
| C29 | `complex_polynomial_total_refuted` | FeatThms.v | sig_not_dec, sig_forall_dec, functional_extensionality_dep |
| C30 | `bin_spec` | VecThms.v | closed under the global context |
| C30 | `bin_persistence_image_spec` | VecThms.v | closed under the global context |
| C30 | `grid_covers_training_values` | VecThms.v | closed under the global context |
| C30 | `single_bin_step_undefined` | VecThms.v | closed under the global context |
| C31 | `betti_curve_ignores_diagonal` | VecThms.v | closed under the global context |
| C31 | `persistence_landscape_ignores_diagonal` | VecThms.v | closed under the global context |
| C31 | `silhouette_ignores_diagonal` | MetricThms.v | sig_not_dec, sig_forall_dec, functional_extensionality_dep, classic |
| C31 | `heat_kernel_ignores_diagonal` | VecThms.v | closed under the global context |
| C31 | `amplitude_ignores_diagonal` | MetricThms.v | sig_not_dec, sig_forall_dec, functional_extensionality_dep, classic |
| C31 | `persistence_entropy_ignores_diagonal` | FeatThms.v | sig_not_dec, sig_forall_dec, functional_extensionality_dep, classic |
| C31 | `number_of_points_ignores_diagonal` | FeatThms.v | closed under the global context |
| C31 | `complex_polynomial_ignores_diagonal` | FeatThms.v | sig_not_dec, sig_forall_dec, functional_extensionality_dep |
| C31 | `persistence_image_ignores_diagonal_partial` | VecThms.v | closed under the global context |
| C31 | `persistence_image_ignores_diagonal_refuted` | VecThms.v | closed under the global context |
| C32 | `dilation_filtration_spec` | ImgThms.v | closed under the global context |
| C32 | `dilation_filtration_exact` | ImgThms.v | closed under the global context |
| C33 | `erosion_filtration_spec` | ImgThms.v | closed under the global context |
| C33 | `erosion_is_dual` | ImgThms.v | closed under the global context |
| C34 | `signed_distance_filtration_spec` | ImgThms.v | closed under the global context |
| C34 | `signed_distance_sign` | ImgThms.v | closed under the global context |
| C35 | `height_filtration_spec` | ImgThms2.v | sig_not_dec, sig_forall_dec, functional_extensionality_dep, classic |
| C35 | `height_properties` | ImgThms2.v | sig_forall_dec, functional_extensionality_dep |
| C35 | `height_1d_refuted` | ImgThms2.v | sig_not_dec, sig_forall_dec, functional_extensionality_dep, classic |
| C35 | `image_dimensions_refused` | ImgThms2.v | sig_not_dec, sig_forall_dec, functional_extensionality_dep, classic |
| C35 | `height_outside_refused` | ErrThms.v | sig_not_dec, sig_forall_dec, functional_extensionality_dep, classic |
| C36 | `radial_filtration_spec` | ImgThms2.v | sig_forall_dec, functional_extensionality_dep |
| C36 | `radial_1d_refuted` | ImgThms2.v | sig_forall_dec, functional_extensionality_dep |
| C36 | `image_dimensions_refused` | ImgThms2.v | sig_not_dec, sig_forall_dec, functional_extensionality_dep, classic |
| C36 | `nonpositive_radius_refused` | ErrThms.v | sig_forall_dec, functional_extensionality_dep |
| C37 | `density_filtration_spec` | ImgThms2.v | sig_forall_dec, functional_extensionality_dep |
| C37 | `density_counts` | ImgThms2.v | sig_forall_dec |
| C37 | `minkowski_proper` | ImgThms2.v | sig_not_dec, sig_forall_dec, functional_extensionality_dep, classic |
| C37 | `density_1d_refuted` | ImgThms2.v | sig_forall_dec, functional_extensionality_dep |
| C37 | `density_infinite_radius_refuted` | ImgThms2.v | sig_forall_dec, functional_extensionality_dep |
| C37 | `image_dimensions_refused` | ImgThms2.v | sig_not_dec, sig_forall_dec, functional_extensionality_dep, classic |
| C37 | `nonpositive_radius_refused` | ErrThms.v | sig_forall_dec, functional_extensionality_dep |
| C38 | `binarizer_spec` | ImgThms.v | closed under the global context |
| C38 | `binarizer_monotone` | ImgThms.v | closed under the global context |
| C38 | `binarizer_monotone_refuted` | ImgThms.v | closed under the global context |
| C38 | `inverter_spec` | ImgThms.v | closed under the global context |
| C38 | `inverter_false_refuted` | ImgThms.v | closed under the global context |
| C38 | `padder_spec` | ImgThms.v | closed under the global context |
| C38 | `padder_errors` | PadThms.v | closed under the global context |
| C38 | `inverter_mixed` | ImgThms.v | closed under the global context |
| C38 | `image_dimensions_refused` | ImgThms2.v | sig_not_dec, sig_forall_dec, functional_extensionality_dep, classic |
| C39 | `image_to_point_cloud_spec` | ImgThms.v | closed under the global context |
| C39 | `pixels_to_points_injective` | ImgThms.v | closed under the global context |
| C39 | `point_cloud_needs_two_axes` | ErrThms.v | closed under the global context |
| C40 | `uniform_cover_spec` | CoverThms.v | closed under the global context |
| C40 | `cover_rejects` | CoverThms.v | closed under the global context |
| C41 | `cover_masks_spec` | CoverThms.v | closed under the global context |
| C41 | `cover_transform_unfitted` | CoverThms.v | closed under the global context |
| C42 | `cover_fit_transform_same` | CoverThms.v | closed under the global context |
| C42 | `balanced_cover_spec` | CoverThms.v | closed under the global context |
| C42 | `balanced_fit_transform_spec` | CoverThms.v | closed under the global context |
| C42 | `balanced_fit_transform_not_fitted` | CoverThms.v | closed under the global context |
| C42 | `uniform_fit_transform_fitted` | CoverThms.v | closed under the global context |
| C42 | `balanced_right_end_refuted` | CoverThms.v | closed under the global context |
| C43 | `cubical_cover_spec` | CoverThms.v | closed under the global context |
| C43 | `cubical_dimension_check` | CoverThms.v | closed under the global context |
| C43 | `cubical_fit_transform_same` | CoverThms.v | closed under the global context |
| C43 | `cubical_balanced_transform_after_fit_transform` | CoverThms.v | closed under the global context |
| C44 | `parallel_clustering_spec` | MapperThms.v | closed under the global context |
| C44 | `parallel_clustering_schedule` | MapperThms.v | closed under the global context |
| C44 | `parallel_clustering_failure` | MapperThms.v | closed under the global context |
| C44 | `parallel_clustering_rejects` | MapperThms.v | closed under the global context |
| C44 | `parallel_clustering_broadcast` | MapperThms.v | closed under the global context |
| C44 | `parallel_clustering_wrong_number` | MapperThms.v | closed under the global context |
| C45 | `nerve_spec` | MapperThms.v | closed under the global context |
| C45 | `nerve_refined_spec` | MapperThms.v | closed under the global context |
| C45 | `nerve_empty` | MapperThms.v | closed under the global context |
| C46 | `nerve_contract_spec` | MapperThms.v | closed under the global context |
| C46 | `contract_keeps_samples_refuted` | MapperThms.v | closed under the global context |
| C46 | `contract_no_loops_refuted` | MapperThms.v | closed under the global context |
| C47 | `mapper_no_sample_lost` | MapperThms.v | closed under the global context |
| C48 | `first_simple_gap_spec` | GapThms.v | closed under the global context |
| C48 | `first_simple_gap_bounds` | GapThms.v | closed under the global context |
| C48 | `first_gap_single` | GapThms.v | closed under the global context |
| C48 | `first_simple_gap_positive_refuted` | GapThms.v | closed under the global context |
| C48 | `first_simple_gap_identical` | GapThms.v | closed under the global context |
| C48 | `first_histogram_gap_spec` | GapThms.v | closed under the global context |
| C48 | `first_histogram_gap_two` | GapThms.v | closed under the global context |
| C48 | `first_histogram_gap_bounds` | GapThms.v | closed under the global context |
| C48 | `first_histogram_gap_positive_refuted` | GapThms.v | closed under the global context |
| C49 | `mapper_set_params_spec` | MParThms.v | closed under the global context |
| C49 | `get_mapper_params_spec` | MParThms2.v | closed under the global context |
| C49 | `n_jobs_not_reported` | MParThms2.v | closed under the global context |
| C49 | `get_mapper_params_shallow` | MParThms2.v | closed under the global context |
| C49 | `set_then_get` | MParThms2.v | closed under the global context |
| C49 | `unknown_name_error` | MParThms2.v | closed under the global context |
| C49 | `make_mapper_pipeline_spec` | MParThms2.v | closed under the global context |
| C50 | `interval_init_spec` | IntervalThms.v | closed under the global context |
| C50 | `interval_init_error` | IntervalThms.v | closed under the global context |
| C50 | `interval_contains_spec` | IntervalThms.v | closed under the global context |
| C50 | `interval_contains_rejects` | IntervalThms.v | closed under the global context |
| C50 | `interval_is_empty_spec` | IntervalThms.v | closed under the global context |
| C50 | `interval_intersects_spec` | IntervalThms.v | closed under the global context |
| C50 | `interval_intersects_empty_refuted` | IntervalThms.v | closed under the global context |
| C50 | `interval_add_spec` | IntervalThms.v | closed under the global context |
| C50 | `interval_sub_spec` | IntervalThms.v | closed under the global context |
| C50 | `interval_sub_add` | IntervalThms.v | closed under the global context |
| C50 | `interval_mul_spec` | IntervalThms.v | closed under the global context |
| C50 | `interval_mul_negative` | IntervalThms.v | closed under the global context |
| C50 | `interval_mul_zero` | IntervalThms.v | closed under the global context |
| C50 | `interval_truediv_spec` | IntervalThms.v | closed under the global context |
| C50 | `interval_div_zero` | IntervalThms.v | closed under the global context |
| C50 | `interval_floordiv_spec` | IntervalThms.v | closed under the global context |
| C50 | `interval_left_operand_refuted` | IntervalThms.v | closed under the global context |
| C50 | `interval_pickle_refuted` | IntervalThms.v | closed under the global context |
| C50 | `interval_mid_length` | IntervalThms.v | closed under the global context |
| C50 | `interval_operand_errors` | IntervalThms.v | closed under the global context |
| C50 | `interval_floordiv_infinite` | ErrThms.v | closed under the global context |
| C51 | `validate_params_spec` | ValidThms.v | closed under the global context |
| C51 | `validate_params_error` | ValidThms.v | closed under the global context |
| C51 | `validate_nested_refuted` | ValidThms.v | closed under the global context |
| C51 | `validate_dict_keys_refuted` | ValidThms.v | closed under the global context |
| C52 | `check_diagrams_spec` | DiagThms.v | closed under the global context |
| C52 | `check_diagrams_exceptions` | DiagThms.v | closed under the global context |
| C52 | `check_diagrams_all_dimensions_refuted` | DiagThms.v | closed under the global context |
| C53 | `pipe_transform_resample_spec` | PipeThms.v | closed under the global context |
| C53 | `pipe_transform_spec` | PipeThms.v | closed under the global context |
| C53 | `pipe_predict_spec` | PipeThms.v | closed under the global context |
| C53 | `pipe_score_spec` | PipeThms.v | closed under the global context |
| C53 | `no_final_estimator` | PipeThms.v | closed under the global context |
| C53 | `missing_method` | PipeThms.v | closed under the global context |
| C53 | `pipe_aligned` | PipeThms.v | closed under the global context |
| C53 | `pipe_resample_spec` | PipeThms.v | closed under the global context |
| C53 | `pipe_resample_ignores_argument` | PipeThms.v | closed under the global context |
| C53 | `pipe_resample_refuted` | PipeThms.v | closed under the global context |
| C53 | `pipe_inverse_transform_spec` | PipeThms.v | closed under the global context |
| C53 | `pipe_inverse_transform_refuted` | PipeThms.v | closed under the global context |
| C53 | `pipe_fit_spec` | PipeThms.v | closed under the global context |
| C53 | `fit_transform_resample_consistent` | PipeThms.v | closed under the global context |
| C53 | `fit_transform_resample_none` | PipeThms.v | closed under the global context |
| C53 | `fit_transform_consistent` | PipeThms.v | closed under the global context |
| C53 | `pipe_fit_predict_spec` | PipeThms.v | closed under the global context |
| C53 | `fit_then_score` | PipeThms.v | closed under the global context |
| C53 | `fit_transform_resample_aligned` | PipeThms.v | closed under the global context |
| C53 | `mixin_lawful` | PipeThms.v | closed under the global context |
| C53 | `make_pipeline_spec` | PipeThms.v | closed under the global context |
| C53 | `malformed_pipeline_refused` | ErrThms2.v | closed under the global context |
| C53 | `unnamed_parameter_refused` | ErrThms2.v | closed under the global context |
| C54 | `transition_graph_spec` | GraphThms.v | closed under the global context |
| C54 | `transition_graph_transform_spec` | GraphThms.v | closed under the global context |
| C54 | `transitions_positive` | GraphThms.v | closed under the global context |
| C54 | `transition_graph_reverse` | GraphThms.v | closed under the global context |
| C54 | `func_params_ignored` | GraphThms.v | closed under the global context |
| C54 | `transition_graph_symmetric_refuted` | GraphThms.v | closed under the global context |
| C54 | `transition_graph_binary_refuted` | GraphThms.v | closed under the global context |
| C54 | `transition_graph_errors` | GraphThms.v | closed under the global context |
| C55 | `consistent_rescaling_spec` | RescaleThms.v | sig_not_dec, sig_forall_dec, functional_extensionality_dep |
| C55 | `consistent_rescaling_rank_error` | RescaleThms.v | sig_not_dec, sig_forall_dec, functional_extensionality_dep |
| C55 | `consistent_transform_spec` | RescaleThms2.v | sig_not_dec, sig_forall_dec, functional_extensionality_dep |
| C55 | `rescaled_symmetric` | RescaleThms2.v | sig_not_dec, sig_forall_dec, functional_extensionality_dep |
| C55 | `rescaled_formula` | RescaleThms2.v | sig_not_dec, sig_forall_dec, functional_extensionality_dep |
| C55 | `consistent_scale_invariant` | RescaleThms2.v | sig_not_dec, sig_forall_dec, functional_extensionality_dep |
| C55 | `consistent_relabel` | RescaleThms2.v | sig_not_dec, sig_forall_dec, functional_extensionality_dep |
| C55 | `consecutive_transform_spec` | RescaleThms2.v | sig_forall_dec |
| C55 | `consecutive_integer_error` | RescaleThms2.v | sig_forall_dec |
| C55 | `consecutive_symmetric_refuted` | RescaleThms2.v | sig_forall_dec, functional_extensionality_dep |
| C56 | `derivative_fit_spec` | CurveThms.v | closed under the global context |
| C56 | `derivative_spec` | CurveThms.v | closed under the global context |
| C56 | `derivative_empty` | CurveThms.v | closed under the global context |
| C57 | `features_fit_spec` | CurveThms2.v | closed under the global context |
| C57 | `features_spec` | CurveThms2.v | closed under the global context |
| C57 | `features_any_sizes` | CurveThms2.v | closed under the global context |
| C57 | `identity_in_list` | CurveThms2.v | closed under the global context |
| C57 | `other_channels` | CurveThms2.v | closed under the global context |
| C57 | `features_fit_errors` | CurveThms3.v | closed under the global context |
| C57 | `identity_first` | CurveThms2.v | closed under the global context |
| C58 | `coned_matrix_spec` | LocalThms.v | closed under the global context |
| C58 | `coned_matrix_symmetric` | LocalThms.v | closed under the global context |
| C58 | `radius_spec` | LocalThms.v | closed under the global context |
| C58 | `radius_fit_spec` | LocalThms.v | closed under the global context |
| C58 | `kneighbors_fit_spec` | LocalThms2.v | closed under the global context |
| C58 | `kneighbors_spec` | LocalThms2.v | closed under the global context |
| C58 | `kneighbors_general` | LocalThms2.v | closed under the global context |
| C58 | `local_unfitted` | LocalThms2.v | closed under the global context |
| C58 | `radius_fit_error` | LocalThms2.v | closed under the global context |
| C59 | `radius_refit` | LocalThms2.v | closed under the global context |
| C59 | `radius_set_params_ignored` | LocalThms2.v | closed under the global context |
| C59 | `kneighbors_history` | LocalThms2.v | closed under the global context |
| C59 | `kneighbors_refit` | LocalThms2.v | closed under the global context |
| C59 | `kneighbors_refit_refuted` | LocalThms2.v | closed under the global context |
| C59 | `set_params_refuted` | LocalThms2.v | closed under the global context |
| C59 | `set_params_then_clone` | LocalThms2.v | closed under the global context |
| C59 | `second_radius_refuted` | LocalThms2.v | closed under the global context |
| C59 | `cover_history` | HistThms.v | closed under the global context |
| C59 | `uniform_history` | HistThms.v | closed under the global context |
| C59 | `balanced_history_refuted` | HistThms.v | closed under the global context |
| C60 | `collection_transformer_spec` | MetaThms.v | closed under the global context |
| C60 | `finish_spec` | MetaThms.v | closed under the global context |
| C60 | `collection_transformer_unusable` | MetaThms.v | closed under the global context |
| C60 | `collection_transformer_empty` | MetaThms.v | closed under the global context |
| C60 | `items_dense` | MetaThms.v | closed under the global context |
| C60 | `list_union_transform_spec` | MetaThms.v | closed under the global context |
| C60 | `list_union_fit_transform_spec` | MetaThms.v | closed under the global context |
| C60 | `list_union_none` | MetaThms.v | closed under the global context |
| C61 | `check_point_clouds_array` | ValidThms.v | closed under the global context |
| C61 | `check_point_clouds_list` | ValidThms.v | closed under the global context |
| C61 | `check_point_clouds_empty` | ValidThms.v | closed under the global context |
| C61 | `check_point_clouds_nested` | ValidThms.v | closed under the global context |
| C61 | `check_point_clouds_sparse_square_refuted` | ValidThms.v | closed under the global context |
| C61 | `check_collection_list` | ValidThms.v | closed under the global context |
| C62 | `vietoris_rips_spec` | HomThms.v | closed under the global context |
| C62 | `gudhi_spec` | HomThms.v | closed under the global context |
| C62 | `flagser_spec` | HomThms.v | closed under the global context |
| C62 | `cubical_spec` | HomThms.v | closed under the global context |
| C62 | `diagrams_sample_independent` | HomThms.v | closed under the global context |
| C62 | `no_homology_dimensions` | HomThms.v | closed under the global context |
| C62 | `repeated_dimension_refuted` | HomThms.v | closed under the global context |
| C63 | `geodesic_graph_spec` | GraphThms2.v | closed under the global context |
| C63 | `geodesic_method_spec` | GraphThms2.v | closed under the global context |
| C63 | `geodesic_transform_spec` | GraphThms2.v | closed under the global context |
| C63 | `geodesic_transform_empty` | GraphThms2.v | closed under the global context |
| C64 | `filters_reject` | FilterThms.v | sig_not_dec, sig_forall_dec, functional_extensionality_dep, classic |
| C64 | `eccentricity_spec` | FilterThms.v | sig_not_dec, sig_forall_dec, functional_extensionality_dep, classic |
| C64 | `eccentricity_metric` | FilterThms.v | sig_not_dec, sig_forall_dec, functional_extensionality_dep, classic |
| C64 | `eccentricity_precomputed` | FilterThms.v | sig_not_dec, sig_forall_dec, functional_extensionality_dep, classic |
| C64 | `eccentricity_points_and_matrix` | FilterThms.v | sig_not_dec, sig_forall_dec, functional_extensionality_dep, classic |
| C64 | `eccentricity_order` | FilterThms.v | sig_not_dec, sig_forall_dec, functional_extensionality_dep, classic |
| C64 | `eccentricity_negative` | FilterThms.v | sig_not_dec, sig_forall_dec, functional_extensionality_dep, classic |
| C64 | `order_norm_unique` | FilterThms.v | sig_not_dec, sig_forall_dec, functional_extensionality_dep, classic |
| C64 | `order_norm_perm` | FilterThms.v | sig_not_dec, sig_forall_dec, functional_extensionality_dep, classic |
| C64 | `entropy_filter_spec` | FilterThms.v | sig_not_dec, sig_forall_dec, functional_extensionality_dep, classic |
| C64 | `entropy_filter_range` | FilterThms.v | sig_not_dec, sig_forall_dec, functional_extensionality_dep, classic |
| C64 | `entropy_filter_scale` | FilterThms.v | sig_not_dec, sig_forall_dec, functional_extensionality_dep, classic |
| C64 | `entropy_filter_zero_row` | FilterThms.v | sig_not_dec, sig_forall_dec, functional_extensionality_dep, classic |
| C64 | `projection_spec` | FilterThms2.v | closed under the global context |
| C64 | `projection_out_of_range` | FilterThms2.v | closed under the global context |
| C64 | `projection_frame_spec` | FilterThms2.v | closed under the global context |
| C64 | `projection_frame_exceptions` | FilterThms2.v | closed under the global context |
| C64 | `projection_frame_fit_spec` | FilterThms2.v | closed under the global context |
| C64 | `projection_frame_other_columns_refuted` | FilterThms2.v | sig_forall_dec |
| C64 | `projection_frame_index_refuted` | FilterThms2.v | sig_forall_dec, functional_extensionality_dep |
| C65 | `callable_rows` | FilterThms3.v | closed under the global context |
| C65 | `callable_rows_exact` | FilterThms3.v | closed under the global context |
| C65 | `callable_rows_one_type` | FilterThms3.v | closed under the global context |
| C65 | `callable_rows_fail` | FilterThms3.v | closed under the global context |
| C65 | `callable_axis` | FilterThms3.v | closed under the global context |
| C65 | `callable_none` | FilterThms3.v | closed under the global context |
| C65 | `callable_invalid` | FilterThms3.v | closed under the global context |
| C65 | `callable_rows_refuted` | FilterThms3.v | closed under the global context |
| C65 | `stored_exact` | FilterThms3.v | closed under the global context |
| C65 | `method_to_transform_spec` | FilterThms3.v | closed under the global context |
| C65 | `method_to_transform_fit` | FilterThms3.v | closed under the global context |
| C65 | `method_to_transform_missing` | FilterThms3.v | closed under the global context |
| C65 | `method_to_transform_fit_refuted` | FilterThms3.v | closed under the global context |
| C65 | `callable_row_lengths` | ErrThms.v | closed under the global context |
| C66 | `false_neighbors_short` | TakensThms.v | sig_not_dec, sig_forall_dec, functional_extensionality_dep |
| C66 | `false_neighbors_spec` | TakensThms.v | sig_not_dec, sig_forall_dec, functional_extensionality_dep |
| C66 | `false_neighbors_range` | TakensThms.v | sig_not_dec, sig_forall_dec, functional_extensionality_dep |
| C66 | `false_neighbors_affine` | TakensThms6.v | sig_not_dec, sig_forall_dec, functional_extensionality_dep |
| C66 | `nearest_affine` | TakensThms6.v | sig_not_dec, sig_forall_dec, functional_extensionality_dep |
| C66 | `counts_unique` | TakensThms.v | closed under the global context |
| C66 | `false_neighbors_textbook_refuted` | TakensThms6.v | sig_not_dec, sig_forall_dec, functional_extensionality_dep |
| C67 | `mutual_information_spec` | TakensThms4.v | sig_not_dec, sig_forall_dec, functional_extensionality_dep, classic |
| C67 | `mutual_information_joint` | TakensThms4.v | sig_forall_dec, functional_extensionality_dep |
| C67 | `mutual_information_nonneg` | TakensThms4.v | sig_not_dec, sig_forall_dec, functional_extensionality_dep, classic |
| C67 | `mutual_information_zero` | TakensThms4.v | sig_not_dec, sig_forall_dec, functional_extensionality_dep, classic |
| C67 | `mutual_information_pos` | TakensThms5.v | sig_not_dec, sig_forall_dec, functional_extensionality_dep, classic |
| C67 | `mutual_information_constant` | TakensThms4.v | sig_not_dec, sig_forall_dec, functional_extensionality_dep, classic |
| C67 | `mutual_information_degenerate` | TakensThms4.v | sig_not_dec, sig_forall_dec, functional_extensionality_dep, classic |
| C67 | `mutual_information_affine` | TakensThms4.v | sig_not_dec, sig_forall_dec, functional_extensionality_dep, classic |
| C67 | `mutual_information_reverse` | TakensThms4.v | sig_not_dec, sig_forall_dec, functional_extensionality_dep, classic |
| C67 | `information_nonneg` | TakensThms2.v | sig_not_dec, sig_forall_dec, functional_extensionality_dep, classic |
| C67 | `information_zero` | TakensThms2.v | sig_not_dec, sig_forall_dec, functional_extensionality_dep, classic |
| C67 | `takens_search_full` | TakensThms5.v | sig_not_dec, sig_forall_dec, functional_extensionality_dep, classic |
| C67 | `takens_search_long_delay_refuted` | TakensThms5.v | sig_not_dec, sig_forall_dec, functional_extensionality_dep, classic |
| C68 | `plot_diagram_spec` | PlotThms.v | closed under the global context |
| C68 | `plot_diagram_inside` | PlotThms.v | closed under the global context |
| C68 | `plot_diagram_infinite_apart` | PlotThms.v | closed under the global context |
| C68 | `plot_diagram_infinite_apart_refuted` | PlotThms.v | closed under the global context |
| C68 | `plot_diagram_ignores_padding` | PlotThms.v | closed under the global context |
| C69 | `transform_plot_spec` | PlotThms2.v | closed under the global context |
| C69 | `transform_plot_sample_wise` | PlotThms2.v | closed under the global context |
| C69 | `transform_plot_last_refuted` | PlotThms2.v | closed under the global context |
| C69 | `transform_plot_out_of_range` | PlotThms2.v | closed under the global context |
| C69 | `homology_plot_sample_independent` | PlotThms2.v | closed under the global context |
| C69 | `homology_diagrams_drawable` | PlotThms2.v | closed under the global context |
| C69 | `homology_transform_plot` | PlotThms2.v | closed under the global context |
| C70 | `fitted_grids_unique` | PlotThms3.v | closed under the global context |
| C70 | `fitted_grids2_unique` | PlotThms3.v | closed under the global context |
| C70 | `betti_curve_plot_spec` | PlotThms3.v | closed under the global context |
| C70 | `silhouette_plot_spec` | PlotThms3.v | sig_not_dec, sig_forall_dec, functional_extensionality_dep, classic |
| C70 | `landscape_plot_spec` | PlotThms3.v | closed under the global context |
| C70 | `plot_unknown_dimension` | PlotThms3.v | closed under the global context |
| C70 | `heat_kernel_plot_spec` | PlotThms4.v | closed under the global context |
| C70 | `persistence_image_plot_spec` | PlotThms4.v | closed under the global context |
| C70 | `plot_heatmap_spec` | PlotThms5.v | closed under the global context |
| C71 | `plot_point_cloud_spec` | PlotThms5.v | closed under the global context |
| C71 | `plot_point_cloud_errors` | PlotThms5.v | closed under the global context |
| C71 | `derivative_plot_spec` | PlotThms5.v | closed under the global context |
| C71 | `derivative_plot_abscissae_refuted` | PlotThms5.v | closed under the global context |
| C71 | `derivative_plot_channels_refuted` | PlotThms5.v | closed under the global context |
| C71 | `derivative_plot_channels_initial` | PlotThms5.v | closed under the global context |
| C71 | `derivative_plot_too_many` | PlotThms5.v | closed under the global context |
| C71 | `plot_betti_curves_spec` | PlotThms5.v | closed under the global context |
| C71 | `plot_betti_curves_missing` | PlotThms5.v | closed under the global context |
| C71 | `plot_betti_surfaces_spec` | PlotThms5.v | closed under the global context |
| C71 | `plot_betti_surfaces_single` | PlotThms5.v | closed under the global context |
| C71 | `plot_betti_surfaces_default` | PlotThms5.v | closed under the global context |
| C72 | `round_shows` | MplotThms.v | closed under the global context |
| C72 | `shows_unique` | MplotThms.v | closed under the global context |
| C72 | `sig_rounded_error` | MplotThms.v | closed under the global context |
| C72 | `shows_again` | MplotThms.v | closed under the global context |
| C72 | `static_plot_spec` | MplotThms4.v | closed under the global context |
| C72 | `static_plot_default` | MplotThms4.v | closed under the global context |
| C72 | `default_colors_exist` | MplotThms5.v | closed under the global context |
| C72 | `static_plot_array` | MplotThms5.v | closed under the global context |
| C72 | `static_menu_alone` | MplotThms5.v | closed under the global context |
| C72 | `static_menu_history` | MplotThms5.v | closed under the global context |
| C72 | `static_plot_constant_column` | MplotThms5.v | closed under the global context |
| C72 | `static_plot_errors` | MplotThms5.v | closed under the global context |
| C72 | `nerve_graph_proper` | MplotThms6.v | closed under the global context |
| C72 | `mapper_plot_default` | MplotThms6.v | closed under the global context |
| C72 | `static_menu_first_refuted` | MplotThms6.v | closed under the global context |
| C72 | `array_ignores_features_refuted` | MplotThms6.v | closed under the global context |
| C72 | `static_mask_refuted` | MplotThms6.v | closed under the global context |
| C72 | `static_plot_empty_graph` | MplotThms5.v | closed under the global context |
| C72 | `static_plot_selections` | ErrThms2.v | closed under the global context |
| C72 | `replace_without_blank` | ErrThms2.v | closed under the global context |
| C73 | `hex_to_rgb_spec` | ColorThms.v | closed under the global context |
| C73 | `rgb_to_hex_spec` | ColorThms.v | closed under the global context |
| C73 | `hex_round_trip` | ColorThms.v | closed under the global context |
| C73 | `colors_for_vals_spec` | ColorThms2.v | closed under the global context |
| C73 | `colors_increasing` | ColorThms2.v | closed under the global context |
| C73 | `hex_valid` | ColorThms2.v | closed under the global context |
| C73 | `hex_colors_spec` | ColorThms2.v | closed under the global context |
| C73 | `colors_extremes` | ColorThms2.v | closed under the global context |
| C73 | `colors_monotone` | ColorThms3.v | closed under the global context |
| C73 | `colors_affine` | ColorThms3.v | closed under the global context |
| C73 | `colors_decreasing` | ColorThms3.v | closed under the global context |
| C73 | `colors_errors` | ColorThms3.v | closed under the global context |
| C73 | `hex_opacity_ignored` | ErrThms.v | closed under the global context |
| C74 | `interactive_params` | IplotThms2.v | closed under the global context |
| C74 | `interactive_static` | IplotThms3.v | closed under the global context |
| C74 | `interactive_summaries` | IplotThms3.v | closed under the global context |
| C74 | `interactive_valid` | IplotThms3.v | closed under the global context |
| C74 | `interactive_history_independent` | IplotThms3.v | closed under the global context |
| C74 | `interactive_rejected` | IplotThms3.v | closed under the global context |
| C74 | `interactive_array` | IplotThms3.v | closed under the global context |
| C74 | `interactive_shows` | IplotThms3.v | closed under the global context |
| C74 | `interactive_constant_refuted` | IplotThms4.v | closed under the global context |
| C74 | `interactive_white_refuted` | IplotThms4.v | closed under the global context |
| C74 | `interactive_min_intersection_refuted` | IplotThms4.v | closed under the global context |
| C74 | `interactive_menu_refuted` | IplotThms4.v | closed under the global context |
| C75 | `kng_spec` | KnnThms2.v | closed under the global context |
| C75 | `kng_refuses` | KnnThms2.v | closed under the global context |
| C75 | `kng_fit_stateless` | KnnThms2.v | closed under the global context |
| C75 | `kng_unfitted` | KnnThms2.v | closed under the global context |
| C75 | `kng_fit_list` | KnnThms2.v | closed under the global context |
| C75 | `kng_isometry` | KnnThms2.v | closed under the global context |
| C75 | `kng_geodesic` | KnnThms2.v | closed under the global context |
| C75 | `knn_few_closer` | KnnThms3.v | closed under the global context |
| C75 | `knn_joined` | KnnThms3.v | closed under the global context |
| C75 | `knn_distinct` | KnnThms3.v | closed under the global context |
| C75 | `knn_relabel` | KnnThms3.v | closed under the global context |
| C75 | `kng_diagonal_refuted` | KnnThms3.v | closed under the global context |
| C75 | `kng_infinite_refuted` | KnnThms3.v | closed under the global context |
| C75 | `negative_distances_refused` | ErrThms2.v | closed under the global context |
| C76 | `hc_cut_spec` | CutThms3.v | closed under the global context |
| C76 | `hc_cut_nested` | CutThms3.v | closed under the global context |
| C76 | `simple_gap_fit` | CutThms3.v | closed under the global context |
| C76 | `histogram_gap_fit` | CutThms3.v | closed under the global context |
| C76 | `histogram_gap_fit_two` | CutThms3.v | closed under the global context |
| C76 | `gap_fit_refuses` | CutThms3.v | closed under the global context |
| C76 | `gap_fit_predict` | CutThms3.v | closed under the global context |
| C76 | `simple_gap_single` | CutThms3.v | closed under the global context |
| C76 | `histogram_gap_single` | CutThms3.v | closed under the global context |
| C76 | `single_linkage_heights` | CutThms4.v | closed under the global context |
| C76 | `simple_gap_single_unique` | CutThms4.v | closed under the global context |
| C76 | `simple_gap_identical` | CutThms4.v | closed under the global context |
| C76 | `single_sample_stale_refuted` | CutThms4.v | closed under the global context |
| C76 | `simple_gap_ties_refuted` | CutThms4.v | closed under the global context |
| C76 | `zero_clusters_refuted` | CutThms4.v | closed under the global context |
| C76 | `hc_cut_too_many` | CutThms3.v | closed under the global context |
| C77 | `flow_lawful` | FlowThms2.v | sig_not_dec, sig_forall_dec, functional_extensionality_dep, classic |
| C77 | `time_series_pipeline_spec` | FlowThms2.v | sig_not_dec, sig_forall_dec, functional_extensionality_dep, classic |
| C77 | `time_series_fit_transform_resample` | FlowThms2.v | sig_not_dec, sig_forall_dec, functional_extensionality_dep, classic |
| C77 | `window_features_independent` | FlowThms2.v | sig_not_dec, sig_forall_dec, functional_extensionality_dep, classic |
| C77 | `time_series_pipeline_errors` | FlowThms2.v | sig_not_dec, sig_forall_dec, functional_extensionality_dep, classic |
| C77 | `time_series_fit_labels` | FlowThms2.v | sig_not_dec, sig_forall_dec, functional_extensionality_dep, classic |
| C77 | `flow_cannot_predict` | ErrThms2.v | sig_not_dec, sig_forall_dec, functional_extensionality_dep, classic |
| C78 | `matching_distance_exists` | StabThms.v | sig_not_dec, sig_forall_dec, functional_extensionality_dep, classic |
| C78 | `landscape_layer_stable` | StabThms.v | sig_not_dec, sig_forall_dec, functional_extensionality_dep, classic |
| C78 | `persistence_landscape_stable` | StabThms.v | sig_not_dec, sig_forall_dec, functional_extensionality_dep, classic |
| C78 | `landscape_distance_stable` | StabThms.v | sig_not_dec, sig_forall_dec, functional_extensionality_dep, classic |
| C78 | `landscape_below_point_distance` | StabThms.v | sig_not_dec, sig_forall_dec, functional_extensionality_dep, classic |
| C78 | `landscape_amplitude_below_point_amplitude` | StabThms.v | sig_not_dec, sig_forall_dec, functional_extensionality_dep, classic |
| C78 | `exact_algorithm_exists` | StabThms.v | sig_not_dec, sig_forall_dec, functional_extensionality_dep, classic |
| C79 | `betti_curve_affine` | EquivThms.v | closed under the global context |
| C79 | `persistence_landscape_affine` | EquivThms.v | closed under the global context |
| C79 | `silhouette_affine` | EquivThms.v | sig_not_dec, sig_forall_dec, functional_extensionality_dep, classic |
| C79 | `heat_kernel_affine` | EquivThms.v | closed under the global context |
| C79 | `persistence_image_affine` | EquivThms.v | closed under the global context |
| C79 | `amplitude_affine` | EquivThms.v | sig_not_dec, sig_forall_dec, functional_extensionality_dep, classic |
| C79 | `pairwise_distance_affine` | EquivThms.v | sig_not_dec, sig_forall_dec, functional_extensionality_dep, classic |
| C79 | `matching_distance_affine` | EquivThms.v | sig_not_dec, sig_forall_dec, functional_extensionality_dep, classic |
| C79 | `point_distance_affine` | EquivThms.v | sig_not_dec, sig_forall_dec, functional_extensionality_dep, classic |
| C80 | `scaler_fit_spec` | ScalerThms.v | sig_not_dec, sig_forall_dec, functional_extensionality_dep, classic |
| C80 | `scaler_function_none` | ScalerThms.v | sig_not_dec, sig_forall_dec, functional_extensionality_dep, classic |
| C80 | `scaler_real_round_trip` | ScalerThms.v | sig_forall_dec, functional_extensionality_dep |
| C80 | `scaler_degenerate` | ScalerThms.v | sig_forall_dec, functional_extensionality_dep |
| C80 | `scaler_zero_scale` | ScalerThms.v | sig_not_dec, sig_forall_dec, functional_extensionality_dep, classic |
| C80 | `scaler_units` | ScalerThms.v | sig_not_dec, sig_forall_dec, functional_extensionality_dep, classic |
| C80 | `scaler_unit_free` | ScalerThms.v | sig_not_dec, sig_forall_dec, functional_extensionality_dep, classic |
| C80 | `scaler_refit` | ScalerThms.v | sig_not_dec, sig_forall_dec, functional_extensionality_dep, classic |
| C80 | `scaler_landscape_refit` | ScalerThms.v | sig_not_dec, sig_forall_dec, functional_extensionality_dep, classic |
| C81 | `cubical_construction` | ExtThms.v | closed under the global context |
| C81 | `periodic_construction` | ExtThms.v | closed under the global context |
| C81 | `cubical_history` | ExtThms.v | closed under the global context |
| C81 | `cubical_delete` | ExtThms.v | closed under the global context |
| C81 | `cubical_undefined` | ExtThms.v | closed under the global context |
| C81 | `intervals_array_refuted` | ExtThms.v | closed under the global context |
| C81 | `simplex_tree_forwards` | ExtThms.v | closed under the global context |
| C81 | `questions_are_pure` | ExtThms.v | closed under the global context |
| C81 | `not_computed` | ExtThms.v | closed under the global context |
| C81 | `computed_from_latest` | ExtThms.v | closed under the global context |
| C81 | `failed_recomputation_refuted` | ExtThms.v | closed under the global context |
| C81 | `lost_computation_iff` | ExtThms.v | closed under the global context |
| C81 | `rips_sources` | ExtThms.v | closed under the global context |
| C81 | `created_tree` | ExtThms.v | closed under the global context |
| C81 | `witness_tree` | ExtThms.v | closed under the global context |
| C81 | `sample_diagrams` | ExtThms.v | closed under the global context |
| C81 | `missing_file_message` | ErrThms2.v | closed under the global context |
| C81 | `not_computed_messages` | ErrThms2.v | closed under the global context |
| C82 | `matching_distance_triangle` | MatchThms.v | sig_not_dec, sig_forall_dec, functional_extensionality_dep, classic |
| C82 | `matching_distance_symmetric` | MatchThms.v | sig_not_dec, sig_forall_dec, functional_extensionality_dep, classic |
| C82 | `matching_distance_zero` | MatchThms.v | sig_not_dec, sig_forall_dec, functional_extensionality_dep, classic |
| C82 | `matching_distance_exponent` | MatchThms.v | sig_not_dec, sig_forall_dec, functional_extensionality_dep, classic |
| C82 | `point_distance_near_metric` | MatchThms.v | sig_not_dec, sig_forall_dec, functional_extensionality_dep, classic |
| C82 | `point_distance_pseudo_metric` | MatchThms.v | sig_not_dec, sig_forall_dec, functional_extensionality_dep, classic |
| C82 | `point_distance_exponent` | MatchThms.v | sig_not_dec, sig_forall_dec, functional_extensionality_dep, classic |
| C83 | `memory_transparent` | CacheThms.v | closed under the global context |
| C83 | `fitting_refines` | CacheThms.v | closed under the global context |
| C83 | `fitting_isolated` | CacheThms.v | closed under the global context |
| C83 | `failed_fit` | CacheThms.v | closed under the global context |
| C83 | `memory_optional` | CacheThms.v | closed under the global context |
| C83 | `shared_step_refuted` | CacheThms.v | closed under the global context |
| C83 | `shared_pipeline_refuted` | CacheThms.v | closed under the global context |
| C83 | `failed_fit_refuted` | CacheThms.v | closed under the global context |
| C84 | `scaler_rounding` | RndThms.v | sig_not_dec, sig_forall_dec, functional_extensionality_dep, classic |
| C84 | `scaler_roundtrip_rounding` | RndThms.v | sig_not_dec, sig_forall_dec, functional_extensionality_dep, classic |
| C84 | `filtering_rounding` | RndThms.v | sig_not_dec, sig_forall_dec, functional_extensionality_dep, classic |
| C84 | `fiber_rounding` | RndThms.v | sig_not_dec, sig_forall_dec, functional_extensionality_dep, classic |
| C84 | `grid_rounding` | RndThms.v | sig_not_dec, sig_forall_dec, functional_extensionality_dep, classic |
| C84 | `grid_accuracy` | RndThms.v | sig_not_dec, sig_forall_dec, functional_extensionality_dep, classic |
| C84 | `grid_subnormal_refuted` | RndThms.v | sig_not_dec, sig_forall_dec, functional_extensionality_dep, classic |
| C84 | `grid_pair_formula` | ErrThms.v | sig_forall_dec, functional_extensionality_dep |
| C85 | `cover_limits_rounding` | RndThms.v | sig_not_dec, sig_forall_dec, functional_extensionality_dep, classic |
| C85 | `uniform_cover_rounding` | RndThms.v | sig_not_dec, sig_forall_dec, functional_extensionality_dep, classic |
| C85 | `balanced_cover_rounding` | RndThms.v | sig_not_dec, sig_forall_dec, functional_extensionality_dep, classic |
| C85 | `uniform_cover_refuted` | RndThms.v | sig_not_dec, sig_forall_dec, functional_extensionality_dep, classic |
| C86 | `mapper_order_independent` | MapInvThms.v | closed under the global context |
| C86 | `cover_units` | MapInvThms.v | closed under the global context |
| C86 | `mapper_units` | MapInvThms.v | closed under the global context |
| C86 | `cubical_cover_units` | MapInvThms.v | closed under the global context |
| C86 | `mapper_order_contract_refuted` | MapInvThms.v | closed under the global context |
| C86 | `uniform_cover_increasing_refuted` | MapInvThms.v | closed under the global context |
| C87 | `fit_forgets_the_past` | FitThms2.v | closed under the global context |
| C87 | `stale_tree_refuted` | FitThms2.v | closed under the global context |
| C87 | `classes_covered` | FitThms2.v | closed under the global context |
| C88 | `failed_fit_is_invisible` | FitThms2.v | closed under the global context |
| C88 | `failed_fit_is_invisible_same_params` | FitThms2.v | closed under the global context |
| C88 | `failed_fit_is_invisible_refuted` | FitThms2.v | closed under the global context |
| C88 | `failed_fit_with_other_params_refuted` | FitThms2.v | closed under the global context |
| C88 | `diagrams_spoilt` | FitThms2.v | closed under the global context |
| C88 | `metric_spoilt` | FitThms2.v | closed under the global context |
| C89 | `unfitted_methods_raise_not_fitted` | FitThms2.v | closed under the global context |
| C89 | `fitted_object_is_usable` | FitThms2.v | closed under the global context |
| C89 | `not_fitted_image_to_point_cloud_refuted` | FitThms2.v | closed under the global context |
| C89 | `not_fitted_filtrations_refuted` | FitThms2.v | closed under the global context |
| C90 | `batches_can_be_split` | BatchThms.v | closed under the global context |
| C90 | `rows_are_single_outputs` | BatchThms.v | closed under the global context |
| C90 | `rows_follow_samples` | BatchThms.v | closed under the global context |
| C90 | `batches_can_be_split_or_raise` | BatchThms.v | closed under the global context |
| C90 | `rows_are_single_outputs_or_raise` | BatchThms.v | closed under the global context |
| C90 | `curves_and_images_sample_by_sample` | BatchThms.v | sig_not_dec, sig_forall_dec, functional_extensionality_dep, classic |
| C90 | `features_sample_by_sample` | BatchThms.v | sig_not_dec, sig_forall_dec, functional_extensionality_dep, classic |
| C90 | `metrics_sample_by_sample` | BatchThms.v | sig_not_dec, sig_forall_dec, functional_extensionality_dep, classic |
| C90 | `images_sample_by_sample` | BatchThms2.v | sig_not_dec, sig_forall_dec, functional_extensionality_dep, classic |
| C90 | `inverter_sample_by_sample` | BatchThms2.v | closed under the global context |
| C90 | `series_and_graphs_sample_by_sample` | BatchThms2.v | sig_not_dec, sig_forall_dec, functional_extensionality_dep, classic |
| C90 | `filters_sample_by_sample` | BatchThms2.v | sig_not_dec, sig_forall_dec, functional_extensionality_dep, classic |
| C90 | `filtering_sample_by_sample_refuted` | BatchThms2.v | closed under the global context |
| C90 | `eccentricity_sample_by_sample_refuted` | BatchThms2.v | sig_not_dec, sig_forall_dec, functional_extensionality_dep, classic |
| C91 | `reflection_is_symmetry` | ImgSymThms.v | closed under the global context |
| C91 | `axis_permutation_is_symmetry` | ImgSymThms.v | closed under the global context |
| C91 | `distance_filtrations_symmetric` | ImgSymThms2.v | closed under the global context |
| C91 | `height_filtration_symmetric` | ImgSymThms2.v | sig_not_dec, sig_forall_dec, functional_extensionality_dep, classic |
| C91 | `height_reflected` | ImgSymThms2.v | sig_not_dec, sig_forall_dec, functional_extensionality_dep, classic |
| C91 | `height_axes_permuted` | ImgSymThms2.v | sig_not_dec, sig_forall_dec, functional_extensionality_dep, classic |
| C91 | `radial_filtration_symmetric` | ImgSymThms3.v | sig_forall_dec, functional_extensionality_dep |
| C91 | `density_filtration_symmetric` | ImgSymThms3.v | sig_forall_dec, functional_extensionality_dep |
| C91 | `minkowski_reflection` | ImgSymThms3.v | sig_not_dec, sig_forall_dec, functional_extensionality_dep, classic |
| C91 | `minkowski_axis_permutation` | ImgSymThms3.v | sig_not_dec, sig_forall_dec, functional_extensionality_dep, classic |
| C91 | `distance_filtrations_monotone` | ImgSymThms4.v | closed under the global context |
| C91 | `density_filtration_monotone` | ImgSymThms4.v | sig_forall_dec, functional_extensionality_dep |
| C91 | `height_filtration_monotone` | ImgSymThms4.v | sig_not_dec, sig_forall_dec, functional_extensionality_dep, classic |
| C91 | `radial_filtration_monotone` | ImgSymThms4.v | sig_forall_dec, functional_extensionality_dep |
| C91 | `neighbours_differ_by_one` | ImgSymThms4.v | closed under the global context |
| C92 | `amplitude_lipschitz` | AmpLipThms.v | sig_not_dec, sig_forall_dec, functional_extensionality_dep, classic |
| C92 | `amplitude_order_lipschitz` | AmpLipThms.v | sig_not_dec, sig_forall_dec, functional_extensionality_dep, classic |
| C93 | `constructor_stores_its_arguments` | CtorThms.v | closed under the global context |
| C93 | `documented_parameters` | CtorThms2.v | closed under the global context |
| C93 | `documented_defaults` | CtorThms2.v | closed under the global context |
| C93 | `documented_defaults_refuted` | CtorThms2.v | closed under the global context |
| C93 | `get_params_returns_the_parameters` | CtorThms2.v | closed under the global context |
| C93 | `set_params_overwrites` | CtorThms2.v | closed under the global context |
| C93 | `clone_keeps_exactly_the_parameters` | CtorThms2.v | closed under the global context |
| C93 | `local_homology_set_params_refuted` | CtorThms2.v | closed under the global context |
| C93 | `methods_leave_the_parameters_alone` | CtorThms3.v | closed under the global context |
| C94 | `features_ignore_row_order` | ImgFlowThms.v | sig_not_dec, sig_forall_dec, functional_extensionality_dep, classic |
| C94 | `cubical_diagrams_symmetric` | ImgFlowThms2.v | closed under the global context |
| C94 | `image_features_symmetric` | ImgFlowThms3.v | sig_not_dec, sig_forall_dec, functional_extensionality_dep, classic |
| C94 | `image_pipeline_symmetric` | ImgFlowThms4.v | sig_not_dec, sig_forall_dec, functional_extensionality_dep, classic |
| C95 | `image_pipeline_spec` | ImgFlowThms6.v | sig_not_dec, sig_forall_dec, functional_extensionality_dep, classic |
| C96 | `fit_keeps_the_dimensions` | FitExtThms.v | sig_not_dec, sig_forall_dec, functional_extensionality_dep, classic |
| C96 | `fit_keeps_the_extent` | FitExtThms.v | sig_not_dec, sig_forall_dec, functional_extensionality_dep, classic |
| C96 | `fit_keeps_births_and_lifetimes` | FitExtThms.v | sig_not_dec, sig_forall_dec, functional_extensionality_dep, classic |
| C96 | `training_order_does_not_matter` | FitExtThms.v | sig_not_dec, sig_forall_dec, functional_extensionality_dep, classic |
| C97 | `log_spec` | LogThms.v | closed under the global context |
| C97 | `log_plots` | LogThms.v | closed under the global context |
| C97 | `log_single_plot` | LogThms.v | closed under the global context |
| C97 | `log_of_own_plot_refuted` | LogThms.v | closed under the global context |
| C98 | `interval_str_brackets` | IvTextThms.v | closed under the global context |
| C98 | `interval_str_injective` | IvTextThms.v | closed under the global context |
| C98 | `interval_repr_evaluates` | IvTextThms.v | closed under the global context |
| C98 | `interval_hash_spec` | IvTextThms.v | closed under the global context |
| C98 | `interval_set_refuted` | IvTextThms.v | closed under the global context |
| C98 | `interval_immutable_refuted` | IvTextThms.v | closed under the global context |
| C99 | `sliding_window_older_values` | StreamThms.v | closed under the global context |
| C99 | `sliding_window_newer_values` | StreamThms.v | closed under the global context |
| C99 | `sliding_window_newer_values_exact` | StreamThms.v | closed under the global context |
| C99 | `sliding_window_older_labels` | StreamThms.v | closed under the global context |
| C99 | `takens_older_values` | StreamThms.v | closed under the global context |
| C99 | `takens_newer_values` | StreamThms.v | closed under the global context |
| C99 | `resampler_newer_values` | StreamThms.v | closed under the global context |
| C99 | `stationarizer_older_values` | StreamThms.v | closed under the global context |

