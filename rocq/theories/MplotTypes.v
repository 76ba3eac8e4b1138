(** Inputs and figures of the Mapper plots. *)
From Coq Require Import Ascii String.
From Verif Require Import Np Fl ColorTypes.
Open Scope Z_scope.

(** A Mapper graph: for each node the label of its pullback set, its partial
    cluster label and its elements; edges as pairs of nodes. *)
Record mnode := MNode { n_pullback : Z; n_cluster : Z; n_elements : list Z }.
Record mgraph := MGraph { g_nodes : list mnode; g_edges : list (Z * Z) }.

(** Names of columns. *)
Inductive label := LInt (z : Z) | LStr (s : string).
(** Arrays with one or two dimensions; rows of [ncols] entries. *)
Inductive arr := A1 (l : list Qc) | A2 (ncols : Z) (rows : list (list Qc)).
(** Arrays, pandas dataframes and series. *)
Inductive cdata := DArr (a : arr) | DFrame (names : list label) (rows : list (list Qc)) | DSeries (l : list Qc).
(** The argument color_features: None; an object with a dtype; an object which may
    have fit_transform, transform and __call__; a column; a list of columns; a
    list of booleans. *)
Inductive cfeat :=
| FNone
| FTyped
| FObj (fit tr : option (cdata -> res arr)) (call : option (cdata -> res cdata))
| FCol (c : label)
| FCols (l : list label)
| FMask (l : list bool).
(** The argument node_color_statistic: None; a callable; an array; anything else. *)
Inductive nstat := NNone | NCall (f : list Qc -> res Qc) | NArr (a : arr) | NOther.

(** A rounded statistic as shown: the integer 0 or a number. *)
Inductive shown := Zero | Num (q : Qc).

(** Background colours of the hover labels. *)
Inductive bg := BgNone | BgWhite | BgUser (s : string) | BgNodes (l : list string).
(** An entry of the menu "Color by": what it changes. *)
Record button := Button { b_label : label; b_colors : list Qc; b_text : list string; b_bg : option (list string) }.
(** The figure: coordinates of the edge trace and of the node trace (one list per
    axis), sizes, size reference, colours, colour scale, hover texts and label
    colours of the nodes, menu. *)
Record mfigure := MFigure {
  f_edges : list (list (option Qc));
  f_pos : list (list Qc);
  f_sizes : list Z;
  f_sizeref : Qc;
  f_colors : list Qc;
  f_scale : colorscale_t;
  f_text : list string;
  f_bg : bg;
  f_menu : option (list button) }.
(** The part of plotly_params["node_trace"] that the code looks at. *)
Record pparams := PParams { pp_bg : option string; pp_scale : option colorscale_t }.
