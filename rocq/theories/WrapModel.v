(** Model of the [plot] methods of the transformers that produce persistence diagrams. *)
From Verif Require Import Np Fl DiagTypes DiagModel PlotTypes PlotModel.
Open Scope Z_scope.

(** gtda/diagrams/preprocessing.py, Scaler.plot, lines 349-357, and Filtering.plot, lines
    513-521 (the same text).  [fitted] is the attribute homology_dimensions_, absent before
    [fit].  plotly_params is not modelled. *)
Definition preprocessor_plot (fitted : option (list fl)) (Xt : list diagram) (sample : Z)
  (homology_dimensions : option (list fl)) : res figure :=
  do _homology_dimensions <- match homology_dimensions with
    | None => match fitted with None => Err AttributeError | Some l => Ok l end
    | Some l => Ok l
    end;
  do x <- py_get Xt sample;
  plot_diagram x (Some _homology_dimensions).

(** gtda/homology/simplicial.py lines 342-345 (and the same text in the other classes of that
    file) and gtda/homology/cubical.py lines 256-259. *)
Definition homology_plot (Xt : list diagram) (sample : Z)
  (homology_dimensions : option (list fl)) : res figure :=
  do x <- py_get Xt sample; plot_diagram x homology_dimensions.

(** Filtering(homology_dimensions, epsilon).fit(X), then plot(transform(Y), sample): lines
    438-449, 476-479 and 513-521. *)
Definition filtering_then_plot (homology_dimensions : option (list Z)) (epsilon : fl)
  (X Y : list diagram) (sample : Z) : res figure :=
  do ds <- filtering_fit homology_dimensions X;
  do Yt <- filter_diagrams Y ds epsilon;
  preprocessor_plot (Some ds) Yt sample None.

(** Scaler.plot(transform(Y), sample) after a fit on X that gave [scale]: homology_dimensions_
    is np.unique of the third column of X[0] (lines 243-247); the plot is lines 349-357. *)
Definition scaler_then_plot (scale : fl) (X Y : list diagram) (sample : Z) : res figure :=
  do ds <- first_dims X;
  preprocessor_plot (Some ds) (scaler_transform scale Y) sample None.

(** ForgetDimension().fit_transform(Y), then plot(., sample): lines 83-89 and 117-120. *)
Definition forget_then_plot (Y : list diagram) (sample : Z) : res figure :=
  do x <- py_get (forget_dimension Y) sample; plot_diagram x (Some [PInf]).
