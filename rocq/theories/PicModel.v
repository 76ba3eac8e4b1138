(** Model of the [plot] methods of the transformers of images: pictures of single samples.
    Titles, colours and plotly_params are not modelled. *)
From Verif Require Import Np Nd Fl PlotTypes PlotModel.
Open Scope Z_scope.

(** The rows of a two-dimensional array, as numbers: gtda/images/preprocessing.py multiplies by
    1 (lines 179, 348, 519), which turns booleans into 0 and 1. *)
Definition image_rows (x : nd Z) : list (list Qc) :=
  match nshape x with
  | [n; m] => tabZ n (fun r => tabZ m (fun c =>
      match nget x [r; c] with Some v => qz v | None => 0%Qc end))
  | _ => []
  end.

(** gtda/images/preprocessing.py lines 178-182, 347-351 and 518-522, gtda/images/filtrations.py
    lines 220-224 (and the same text in the other classes of that file), for a collection of
    two-dimensional images; the default of [origin] is 'upper'. *)
Definition image_plot (Xt : list (nd Z)) (sample : Z) (origin : origin_t) : res heatmap :=
  do x <- py_get Xt sample; Ok (plot_heatmap (image_rows x) None None origin).

(** gtda/images/preprocessing.py line 660 (ImageToPointCloud.plot), for point clouds of
    two-dimensional images, which have two columns. *)
Definition image_cloud_plot (Xt : list (list (list Z))) (sample : Z) : res cloud_plot :=
  do c <- py_get Xt sample; plot_point_cloud 2 (map (map qz) c) None.
