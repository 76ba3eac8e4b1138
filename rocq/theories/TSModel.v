(** Model of gtda/time_series: SlidingWindow, Takens embeddings, Labeller,
    Resampler, Stationarizer.  Series are lists; entries are of an arbitrary
    type where the code only moves them around. *)
From Verif Require Import Np Fl.
Open Scope Z_scope.

(** [range(a, b, s)] / [np.arange(a, b, s)] for s > 0 (Python primitive). *)
Definition prange (a b s : Z) : list Z :=
  tabZ (slice_count s a b) (fun k => a + k * s).

(** [l[::-1]] *)
Definition flip {A} (l : list A) : list A := py_slice None None (-1) l.

(** gtda/time_series/embedding.py:183-194 SlidingWindow._window_indices.
    [divmod] by a positive stride is (Z.div, Z.modulo).  [np.tile(np.arange(
    size), (n_windows, 1)) + np.arange(n_windows)[:, None]*stride + offset] is
    written entry by entry. *)
Definition window_indices (n size stride : Z) : res (list (list Z)) :=
  let n_windows := (n - size) / stride in
  let offset := (n - size) mod stride in
  let n_windows := n_windows + 1 in
  if n_windows <=? 0 then Err ValueError
  else Ok (tabZ n_windows (fun w => tabZ size (fun j => j + (w * stride + offset)))).

(** embedding.py:196-198 SlidingWindow.slice_windows *)
Definition slice_windows {A} (size stride : Z) (X : list A) : res (list (Z * Z)) :=
  do idx <- window_indices (zlen X) size stride;
  mapM (fun w => do a <- py_get w 0; do b <- py_get w (-1); Ok (a + 0, b + 1)) idx.

(** embedding.py:225-249 SlidingWindow.transform (check_array omitted: entries
    are already an array along axis 0). *)
Definition sw_transform {A} (size stride : Z) (X : list A) : res (list (list A)) :=
  do idx <- window_indices (zlen X) size stride;
  mapM (gather X) idx.

(** embedding.py:251-276 SlidingWindow.resample *)
Definition sw_resample {A} (size stride : Z) (y : list A) : list A :=
  flip (py_slice None (Some (size - 2)) (- stride) y).

(** gtda/base.py:41-64 TransformerResamplerMixin.transform_resample *)
Definition transform_resample {X X' Y Y'} (transform : X -> res X')
  (resample : Y -> res Y') (x : X) (y : Y) : res (X' * Y') :=
  do x' <- transform x; do y' <- resample y; Ok (x', y').

Definition sw_transform_resample {A B} size stride (X : list A) (y : list B) :=
  transform_resample (sw_transform size stride) (fun y => Ok (sw_resample size stride y)) X y.

(** gtda/time_series/_utils.py:11-30 _time_delay_embedding, index computation
    (ndarray branch) *)
Definition tde_indices (n time_delay dimension stride : Z) (ensure_last_value : bool)
  : res (list (list Z)) :=
  let n_points := (n - time_delay * (dimension - 1) - 1) / stride in
  let offset := (n - time_delay * (dimension - 1) - 1) mod stride in
  let n_points := n_points + 1 in
  if n_points <=? 0 then Err ValueError
  else
    let base := prange 0 (time_delay * dimension) time_delay in
    let indices := tabZ n_points (fun p => map (fun b => b + p * stride) base) in
    let indices := if ensure_last_value
                   then map (map (fun i => i + offset)) indices else indices in
    Ok indices.

(** _utils.py:30 [X[..., indices]] on a one-dimensional array *)
Definition tde {A} (t d s : Z) (elv : bool) (X : list A) : res (list (list A)) :=
  do idx <- tde_indices (zlen X) t d s elv; mapM (gather X) idx.

(** Transpose of a (c, P) array of lists into (P, c) (Python primitive
    [np.transpose] on the two middle axes). *)
Definition transpose2 {A} (P : Z) (rows : list (list A)) : res (list (list A)) :=
  mapM (fun p => mapM (fun r => py_get r p) rows) (arange P).

(** _utils.py:30-34 with [flatten=True] on one sample of a 3-dimensional array
    (channels x time): embed every channel, swap the channel and window axes,
    then merge the last two axes (row-major reshape = concatenation). *)
Definition tde_flatten {A} (t d s : Z) (elv : bool) (chans : list (list A))
  : res (list (list A)) :=
  do emb <- mapM (tde t d s elv) chans;
  let P := match emb with e :: _ => zlen e | [] => 0 end in
  do tr <- transpose2 P emb;
  Ok (map (@concat A) tr).

(** embedding.py:676-725 TakensEmbedding.transform for a collection of
    univariate series (2D array or list of 1D arrays): per-sample embedding. *)
Definition takens_transform {A} (t d s : Z) (elv : bool) (X : list (list A))
  : res (list (list (list A))) := mapM (tde t d s elv) X.

(** embedding.py:456-483 SingleTakensEmbedding.transform *)
Definition ste_transform {A} (t d s : Z) (X : list A) := tde t d s true X.

(** embedding.py:485-511 SingleTakensEmbedding.resample *)
Definition ste_resample {A} (t d s : Z) (y : list A) : list A :=
  let final_index := t * (d - 1) in
  flip (py_slice None (Some (final_index - 1)) (- s) y).

Definition ste_transform_resample {A B} t d s (X : list A) (y : list B) :=
  transform_resample (ste_transform t d s) (fun y => Ok (ste_resample t d s y)) X y.

(** Python [min(list)] and [list.index(x)]; ValueError on an empty list. *)
Definition py_min (l : list Qc) : res Qc :=
  match l with
  | [] => Err ValueError
  | x :: t => Ok (fold_left (fun m y => if Qcltb y m then y else m) t x)
  end.
Fixpoint py_index (l : list Qc) (x : Qc) : res Z :=
  match l with
  | [] => Err ValueError
  | y :: t => if Qceqb y x then Ok 0 else rmap (fun i => i + 1) (py_index t x)
  end.

(** embedding.py:24-114 takens_embedding_optimal_parameters.  The scores are
    parameters: [mi t] is [_mutual_information(X, t, n_bins=100)] and [fnn t d]
    is [_false_nearest_neighbors(X, t, d, stride)] (a count).  joblib.Parallel
    returns results in submission order. *)
Definition variation (fnn : list Z) (dim : Z) : res Qc :=
  do a <- py_get fnn (dim - 1);
  do b <- py_get fnn dim;
  do c <- py_get fnn (dim + 1);
  Ok (Q2Qc (inject_Z (Z.abs (a - 2 * b + c))) / Q2Qc (inject_Z (b + 1))
      / Q2Qc (inject_Z dim))%Qc.
Definition takens_optimal_parameters (mi : Z -> Qc) (fnn : Z -> Z -> Z)
  (max_time_delay max_dimension : Z) : res (Z * Z) :=
  let mis := map mi (prange 1 (max_time_delay + 1) 1) in
  do m <- py_min mis; do i <- py_index mis m;
  let time_delay := i + 1 in
  let n_false := map (fnn time_delay) (prange 1 (max_dimension + 3) 1) in
  do vars <- mapM (variation n_false) (prange 2 (max_dimension + 1) 1);
  do v <- py_min vars; do j <- py_index vars v;
  Ok (time_delay, j + 2).

(** gtda/time_series/target.py:124-149 Labeller.transform *)
Definition lab_transform {A} (size n_steps_future : Z) (X : list A) : list A :=
  let Xt := py_sub None (Some (- n_steps_future)) X in
  if n_steps_future <? size - 1
  then py_sub (Some (size - 1 - n_steps_future)) None Xt
  else Xt.

(** target.py:172-173: the windows reduced by [func(., axis=1)] (external,
    applied window by window) *)
Definition lab_values {A} (func : list A -> fl) (size : Z) (y : list A) : res (list fl) :=
  do w <- sw_transform size 1 y; Ok (map func w).

(** target.py:177-182: one row of the 0/1 matrix, one column per class *)
Fixpoint middle_classes (v : fl) (ts : list fl) : list bool :=
  match ts with
  | t :: ((t' :: _) as rest) => (fle t v && flt v t') :: middle_classes v rest
  | _ => []
  end.
Definition class_row (thresholds : list fl) (v : fl) : res (list bool) :=
  do t0 <- py_get thresholds 0;
  do tl <- py_get thresholds (-1);
  Ok ((fle f0 v && flt v t0) :: middle_classes v thresholds ++ [fle tl v]).

(** [np.nonzero(M)[1]]: column indices of the true entries in row-major order *)
Definition nonzero_cols (r : list bool) : list Z :=
  flat_map (fun k => match Znth r k with Some true => [k] | _ => [] end) (arange (zlen r)).

(** target.py:175-183 *)
Definition lab_classify (thresholds : list fl) (vals : list fl) : res (list Z) :=
  let yr := map fabs vals in
  do rows <- mapM (class_row thresholds) yr;
  let nz := concat (map nonzero_cols rows) in
  if zlen nz =? zlen yr then Ok nz else Err ValueError.

(** target.py:185-186 *)
Definition lab_cut {B} (size n_steps_future : Z) (yr : list B) : list B :=
  if size - 1 <? n_steps_future
  then py_sub (Some (n_steps_future - size + 1)) None yr else yr.

(** target.py:151-188 Labeller.resample, regression ([percentiles=None]) and
    classification targets *)
Definition lab_resample_reg {A} (func : list A -> fl) (size nf : Z) (y : list A) : res (list fl) :=
  do v <- lab_values func size y; Ok (lab_cut size nf v).
Definition lab_resample_cls {A} (func : list A -> fl) (size nf : Z) (thresholds : list fl)
  (y : list A) : res (list Z) :=
  do v <- lab_values func size y;
  do c <- lab_classify thresholds v;
  Ok (lab_cut size nf c).

(** gtda/time_series/preprocessing.py:73-98, 100-122 Resampler.  Line 95,
    [Xt[: None]], is the identity slice. *)
Definition resampler_transform {A} (period : Z) (X : list A) : list A :=
  py_slice None None period (py_sub None None X).
Definition resampler_resample {A} (period : Z) (y : list A) : list A :=
  py_slice None None period y.

(** [np.diff(., n=1)] *)
Fixpoint diff1 (l : list fl) : list fl :=
  match l with
  | x :: ((y :: _) as t) => fsub y x :: diff1 t
  | _ => []
  end.
Fixpoint zipWith {A B C} (f : A -> B -> C) (l : list A) (l' : list B) : list C :=
  match l, l' with
  | x :: t, y :: t' => f x y :: zipWith f t t'
  | _, _ => []
  end.
(** preprocessing.py:195-222 Stationarizer.transform on one column.  [flog] is
    numpy's natural logarithm. *)
Definition stationarize_return (X : list fl) : list fl :=
  zipWith fdiv (diff1 X) (py_sub (Some 1) None X).
Definition stationarize_log (flog : fl -> fl) (X : list fl) : list fl :=
  diff1 (map flog X).
(** preprocessing.py:224-245 Stationarizer.resample *)
Definition stationarize_resample {A} (y : list A) : list A := py_sub (Some 1) None y.
