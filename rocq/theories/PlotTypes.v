(** Figures: the data handed to plotly by the plotting functions. *)
From Verif Require Import Np Fl DiagTypes.
Open Scope Z_scope.

(** Legend names: f"H{int(dim)}" or "Any homology dimension". *)
Inductive dim_name := HName (k : Z) | AnyDimension.
(** Hover text f"{(birth, death)}" followed by ", multiplicity: {n}" if any. *)
Record hover := Hover { hv_birth : fl; hv_death : fl; hv_mult : option Z }.
Inductive trace :=
| Diagonal (x0 x1 : fl)                              (* line (x0, x0) - (x1, x1) *)
| Markers (name : dim_name) (x y : list fl) (text : list hover)
| Infinity (x0 x1 y : fl).                           (* line (x0, y) - (x1, y) *)
(** [f_range] is the range of both axes. *)
Record figure := Figure { f_range : fl * fl; f_traces : list trace }.

(** Heat maps. *)
Inductive origin_t := Upper | Lower.
(** [h_x], [h_y]: labels of columns and rows; [h_reversed]: the vertical axis
    points down. *)
Record heatmap := Heatmap { h_z : list (list Qc); h_x : option (list Qc); h_y : option (list Qc); h_reversed : bool }.
(** Scatter plots of point clouds: coordinates along each axis and the colour index of each point. *)
Record cloud_plot := CloudPlot { c_coords : list (list Qc); c_color : list Z }.

(** One line of a plot: label, horizontal and vertical coordinates. *)
Record line (L V : Type) := Line { l_name : L; l_x : list Qc; l_y : V }.
Arguments Line {L V}. Arguments l_name {L V}. Arguments l_x {L V}. Arguments l_y {L V}.

(** Betti surfaces. *)
Record surface V := Surface { s_dim : Z; s_x : list Qc; s_y : list Z; s_z : list V }.
Arguments Surface {V}. Arguments s_dim {V}. Arguments s_x {V}. Arguments s_y {V}. Arguments s_z {V}.
