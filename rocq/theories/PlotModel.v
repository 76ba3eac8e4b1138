(** Model of gtda/plotting/persistence_diagrams.py, gtda/plotting/images.py,
    gtda/plotting/point_clouds.py, gtda/plotting/diagram_representations.py, the
    [plot] methods of gtda/diagrams/representations.py and
    gtda/curves/preprocessing.py, and PlotterMixin of gtda/base.py.

    A figure is modelled by the data handed to plotly (trace coordinates, names,
    hover texts and axis ranges).  Sizes, colours of axes, titles and the user's
    [plotly_params] are not modelled. *)
From Verif Require Import Np Fl DiagTypes DiagModel VecModel CurveModel PlotTypes.
Open Scope Z_scope.

(** ** plot_diagram *)

(** Python's int(x) on a float: truncation; ValueError on NaN, OverflowError on
    infinities. *)
Definition py_int (x : fl) : res Z :=
  match x with
  | NaN => Err ValueError
  | NInf | PInf => Err OverflowError
  | Fin q => Ok (Z.quot (Qnum q) (Zpos (Qden q)))
  end.

Definition isposinf (x : fl) : bool := match x with PInf => true | _ => false end.
Definition isneginf (x : fl) : bool := match x with NInf => true | _ => false end.

(** Equality of rows; np.unique(axis=0) groups equal rows (persistence_diagrams.py
    lines 73-75), so [counts[inverse[k]]] is the number of rows equal to row k and
    [unique[inverse[k]]] is row k itself. *)
Definition row_eqb (p q : pt) : bool :=
  feq (pb p) (pb q) && feq (pd p) (pd q) && feq (pq p) (pq q).
Definition row_count (p : pt) (sub : diagram) : Z := zlen (filter (row_eqb p) sub).

(** persistence_diagrams.py lines 71-90, for one dimension. *)
Definition plot_dim (diagram : diagram) (has_posinfinite_death : bool) (posinfinity_val : fl)
  (dim : fl) : res trace :=
  do name <- (if negb (feq dim PInf) then rmap HName (py_int dim) else Ok AnyDimension);
  let subdiagram := filter (fun p => feq (pq p) dim) diagram in
  let hovertext := map (fun p =>
    let c := row_count p subdiagram in
    Hover (pb p) (pd p) (if 1 <? c then Some c else None)) subdiagram in
  let y := map pd subdiagram in
  let y := if has_posinfinite_death
           then map (fun v => if isposinf v then posinfinity_val else v) y else y in
  Ok (Markers name (map pb subdiagram) y hovertext).

(** Decimal constants. *)
Definition dec (a : Z) (b : positive) : fl := Fin (Q2Qc (a # b)).

(** persistence_diagrams.py lines 8-145. *)
Definition plot_diagram (diagram : diagram) (homology_dimensions : option (list fl))
  : res figure :=
  let dims := match homology_dimensions with
              | None => np_unique (map pq diagram) | Some l => l end in
  let diagram := filter (fun p => negb (feq (pb p) (pd p))) diagram in
  let diagram_no_dims := flat_map (fun p => [pb p; pd p]) diagram in
  do max_val <- (if 0 <? zlen diagram_no_dims
    then np_max (map (fun v => if isposinf v then NInf else v) diagram_no_dims)
    else Ok f1);
  do min_val <- (if 0 <? zlen diagram_no_dims
    then np_min (map (fun v => if isneginf v then PInf else v) diagram_no_dims)
    else Ok f0);
  let parameter_range := fsub max_val min_val in
  let has_posinfinite_death := existsb (fun p => isposinf (pd p)) diagram in
  let posinfinity_val := fadd max_val (fmul (dec 1 10) parameter_range) in
  let extra_space_factor :=
    if has_posinfinite_death then fadd (dec 2 100) (dec 1 10) else dec 2 100 in
  let extra_space := fmul extra_space_factor parameter_range in
  let min_val_display := fsub min_val extra_space in
  let max_val_display := fadd max_val extra_space in
  do markers <- mapM (plot_dim diagram has_posinfinite_death posinfinity_val) dims;
  Ok (Figure (min_val_display, max_val_display)
       (Diagonal min_val_display max_val_display :: markers ++
        if has_posinfinite_death
        then [Infinity min_val_display max_val_display posinfinity_val] else [])).

(** ** PlotterMixin (base.py lines 121-144)

    [transform] is the transformer's method, [plot] draws one transformed sample
    (every [plot] method of the package reads [Xt] only through [Xt[sample]], so
    that with the dictionary [{sample: Xt[0]}] it reads [Xt[0]]). *)
Definition transform_plot {A B F} (transform : list A -> res (list B)) (plot : B -> res F)
  (X : list A) (sample : Z) : res (list B * F) :=
  do Xt <- transform (py_sub (Some sample) (Some (sample + 1)) X);
  do x0 <- py_get Xt 0;
  do fig <- plot x0;
  Ok (Xt, fig).

(** The usual two-step way: transform everything, then plot(Xt, sample). *)
Definition transform_then_plot {A B F} (transform : list A -> res (list B)) (plot : B -> res F)
  (X : list A) (sample : Z) : res F :=
  do Xt <- transform X;
  do x <- py_get Xt sample;
  plot x.

(** ** plot_heatmap (images.py lines 47-62) *)
Definition plot_heatmap (data : image) (x y : option (list Qc)) (origin : origin_t) : heatmap :=
  let reversed := match origin with Lower => false | Upper => true end in
  Heatmap data x y reversed.

(** ** plot_point_cloud (point_clouds.py lines 38-135) on an array with [ncols]
    columns given by its rows.  [color] is the index of each point. *)
Definition column (point_cloud : list (list Qc)) (j : Z) : res (list Qc) :=
  mapM (fun row => py_get row j) point_cloud.
Definition plot_point_cloud (ncols : Z) (point_cloud : list (list Qc)) (dimension : option Z)
  : res cloud_plot :=
  do _ <- (match dimension with           (* validate_params, lines 38-39 *)
           | None => Ok tt
           | Some d => if existsb (Z.eqb d) [2; 3] then Ok tt else Err ValueError end);
  let dimension := match dimension with None => Z.min 3 ncols | Some d => d end in
  if ncols <? dimension then Err ValueError
  else if dimension =? 2 then
    do x <- column point_cloud 0;
    do y <- column point_cloud 1;
    Ok (CloudPlot [x; y] (arange (zlen point_cloud)))
  else if dimension =? 3 then
    do x <- column point_cloud 0;
    do y <- column point_cloud 1;
    do z <- column point_cloud 2;
    Ok (CloudPlot [x; y; z] (arange (zlen point_cloud)))
  else Err UnboundLocalError.             (* line 135: fig was never assigned *)

(** ** Curves *)

(** np.flatnonzero(ref == dim)[0] *)
Fixpoint first_index (ref : list fl) (dim : fl) : res Z :=
  match ref with
  | [] => Err IndexError
  | q :: t => if feq q dim then Ok 0 else rmap (fun i => i + 1) (first_index t dim)
  end.
(** diagrams/_utils.py lines 170-186 _make_homology_dimensions_mapping *)
Definition dimensions_mapping (homology_dimensions : option (list fl)) (ref : list fl)
  : res (list (Z * fl)) :=
  match homology_dimensions with
  | None => Ok (mapi (fun i q => (i, q)) ref)
  | Some l =>
      mapM (fun dim =>
        if negb (existsb (fun q => feq q dim) ref) then Err ValueError
        else do inv_idx <- first_index ref dim; Ok (inv_idx, dim)) l
  end.

(** representations.py lines 201-249 (BettiCurve.plot) and 1177-1225
    (Silhouette.plot): [dims] is homology_dimensions_, [samplings] is samplings_,
    [Xs] is Xt[sample].  The name f"H{dim}" is represented by [dim]. *)
Definition plot_curves {V} (dims : list fl) (samplings : list (fl * list Qc)) (Xs : list V)
  (homology_dimensions : option (list fl)) : res (list (line fl V)) :=
  do mapping <- dimensions_mapping homology_dimensions dims;
  mapM (fun e => do x <- dict_get samplings (snd e);
                 do y <- py_get Xs (fst e);
                 Ok (Line (snd e) x y)) mapping.

(** representations.py lines 444-507 (PersistenceLandscape.plot): one subplot per
    dimension, with title [dim]; the lines are named by their layer number from 1
    and, when there are several subplots, by the dimension.  [len - 1] is used as
    a truth value, so [has_many_homology_dim] is also true for 0 subplots. *)
Definition plot_landscape {V} (dims : list fl) (samplings : list (fl * list Qc)) (Xs : list V)
  (homology_dimensions : option (list fl)) : res (list (fl * list (line (Z * option fl) V))) :=
  do mapping <- dimensions_mapping homology_dimensions dims;
  let n_dims := zlen dims in
  do n_layers <- (if n_dims =? 0 then Err ZeroDivisionError else Ok (zlen Xs / n_dims));
  let has_many_homology_dim := negb (zlen mapping - 1 =? 0) in
  mapM (fun e =>
    let '(inv_idx, dim) := e in
    do ls <- mapM (fun layer =>
        do x <- dict_get samplings dim;
        do y <- py_get Xs (inv_idx * n_layers + layer);
        Ok (Line (layer + 1, if has_many_homology_dim then Some dim else None) x y))
      (arange n_layers);
    Ok (dim, ls)) mapping.

(** representations.py lines 714-726 (HeatKernel.plot) and 967-982
    (PersistenceImage.plot).  int(dim) keeps integer labels; dict lookup uses
    the converted label.  Without rounding int(dim) is an integer value. *)
Definition int_label (dim : fl) : res fl :=
  if negb (feq dim PInf) then rmap fz (py_int dim) else Ok dim.
Definition plot_heat_kernel (dims : list fl) (samplings : list (fl * list Qc))
  (Xs : list image) (idx : Z) : res heatmap :=
  do dim <- py_get dims idx;
  do dim <- int_label dim;
  do x <- dict_get samplings dim;
  do z <- py_get Xs idx;
  Ok (plot_heatmap z (Some x) (Some (rev x)) Lower).
Definition plot_persistence_image (dims : list fl) (samplings : list (fl * (list Qc * list Qc)))
  (Xs : list image) (idx : Z) : res heatmap :=
  do dim <- py_get dims idx;
  do dim <- int_label dim;
  do xy <- dict_get samplings dim;
  do z <- py_get Xs idx;
  Ok (plot_heatmap z (Some (fst xy)) (Some (rev (snd xy))) Lower).

(** representations.py: what fit leaves in homology_dimensions_ and samplings_
    (lines 112-130, 345-363, 615-633, 854-880, 1085-1106). *)
Definition fit_dims (X : list diagram) : res (list fl) := first_dims X.
Definition fit_samplings (n_bins : Z) (X : list diagram) : res (list (fl * list Qc)) :=
  do dims <- first_dims X;
  do s <- bin n_bins dims X;
  Ok (map (fun e => (fst e, fst (snd e))) s).
Definition fit_samplings2 (n_bins : Z) (X : list diagram) : res (list (fl * (list Qc * list Qc))) :=
  do dims <- first_dims X;
  do s <- bin_axes true n_bins dims X;
  Ok (map (fun e => (fst e, (fst (fst (snd e)), fst (snd (snd e))))) s).

(** curves/preprocessing.py lines 183-192 (Derivative.plot) on one sample: the
    abscissae are the integers below the number of channels; the line named
    after the k-th requested channel shows channel k. *)
Definition plot_derivative (n_channels : Z) (Xs : list (list Qc)) (channels : option (list Z))
  : res (list (line Z (list Qc))) :=
  let channels := match channels with None => arange n_channels | Some l => l end in
  let samplings := map qz (arange (zlen Xs)) in
  mapM (fun e => do y <- py_get Xs (fst e); Ok (Line (snd e) samplings y))
       (mapi (fun ix channel => (ix, channel)) channels).

(** plotting/diagram_representations.py lines 40-89 (plot_betti_curves).
    [samplings] is an array with one row per dimension; the dimensions are used as
    positions in both arrays. *)
Definition plot_betti_curves {V} (betti_numbers : list V) (samplings : list (list Qc))
  (homology_dimensions : option (list Z)) : res (list (line Z V)) :=
  let dims := match homology_dimensions with
              | None => arange (zlen betti_numbers) | Some l => l end in
  mapM (fun dim => do x <- py_get samplings dim;
                   do y <- py_get betti_numbers dim;
                   Ok (Line dim x y)) dims.
(** plotting/diagram_representations.py lines 136-187 (plot_betti_surfaces):
    either the curves of the only sample or one surface per dimension, with the
    sample index on the second axis.  samplings=None (the default) is not
    subscriptable. *)
Definition subscript {A} (s : option (list A)) (i : Z) : res A :=
  match s with None => Err TypeError | Some l => py_get l i end.
Definition plot_betti_surfaces {V} (betti_curves : list (list V)) (n_dims : Z)
  (samplings : option (list (list Qc))) (homology_dimensions : option (list Z))
  : res (list (line Z V) + list (surface V)) :=
  let dims := match homology_dimensions with
              | None => arange n_dims | Some l => l end in
  match betti_curves with
  | [b] =>
      rmap inl (mapM (fun dim => do x <- subscript samplings dim;
                                 do y <- py_get b dim;
                                 Ok (Line dim x y)) dims)
  | _ =>
      rmap inr (mapM (fun dim =>
        do x <- subscript samplings dim;
        do z <- mapM (fun b => py_get b dim) betti_curves;
        Ok (Surface dim x (arange (zlen betti_curves)) z)) dims)
  end.
