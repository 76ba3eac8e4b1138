(** Specification of pictures of images and of point clouds (C101). *)
From Verif Require Import Np Fl VecSpec PlotTypes.
Open Scope Z_scope.

(** In a heat map of [n] rows without labels, plotly draws entry (r, c) at abscissa c and
    ordinate r, the ordinates growing downwards if the axis is reversed.  [seen h n u v w]: the
    pixel in column [u] and [v] rows above the bottom of the picture has value [w]. *)
Definition seen (h : heatmap) (n u v : Z) (w : Qc) : Prop :=
  h_x h = None /\ h_y h = None /\
  entry (h_z h) (if h_reversed h then n - 1 - v else v) u = Some w.

(** Marker number [i] of a planar scatter plot is at (x, y), y growing upwards. *)
Definition marker (p : cloud_plot) (i : Z) (x y : Qc) : Prop :=
  exists xs ys, c_coords p = [xs; ys] /\ Znth xs i = Some x /\ Znth ys i = Some y.
