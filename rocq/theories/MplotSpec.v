(** Specification of the Mapper plots, independent of the model. *)
From Coq Require Import Ascii String.
From Verif Require Import Np Fl ColorTypes ColorSpec MplotTypes.
Open Scope Z_scope.

(** ** Rounding *)
(** 10 to the power [k] *)
Definition ten (k : Z) : Qc :=
  match k with
  | Z0 => 1%Qc
  | Zpos p => Qcpower (qz 10) (Pos.to_nat p)
  | Zneg p => (/ Qcpower (qz 10) (Pos.to_nat p))%Qc
  end.
Definition magnitude (x a : Qc) : Prop := ((0 <= x)%Qc /\ a = x) \/ ((x < 0)%Qc /\ a = (- x)%Qc).
(** [r] is the multiple of [u] nearest to [x], the even one if there are two. *)
Definition nearest_multiple (u x r : Qc) : Prop :=
  exists m d, r = (qz m * u)%Qc /\ magnitude (x - r) d /\ (qz 2 * d <= u)%Qc /\ ((qz 2 * d)%Qc = u -> Z.even m = true).
(** [r] is [x] rounded to [n] significant figures: the unit is 10^(e-n+1) where
    10^e <= |x| < 10^(e+1). *)
Definition sig_rounded (n : Z) (x r : Qc) : Prop :=
  exists e a, magnitude x a /\ (ten e <= a)%Qc /\ (a < ten (e + 1))%Qc /\ nearest_multiple (ten (e - n + 1)) x r.
(** What is shown of a statistic. *)
Definition shows (n : option Z) (x : Qc) (s : shown) : Prop :=
  match n with
  | None => s = Num x
  | Some n => (x = 0%Qc /\ s = Zero) \/ (x <> 0%Qc /\ exists r, s = Num r /\ sig_rounded n x r)
  end.

(** ** Colour features *)
(** [col] is column [j] of the rows. *)
Definition is_column (rows : list (list Qc)) (j : Z) (col : list Qc) : Prop :=
  Forall2 (fun row x => Znth row j = Some x) rows col.
(** The columns with their names: the number of the column if it has no name. *)
Definition columns (d : cdata) (cols : list (label * list Qc)) : Prop :=
  match d with
  | DArr (A1 l) | DSeries l => cols = [(LInt 0, l)]
  | DArr (A2 c rows) => zlen cols = c /\ forall j nm col, Znth cols j = Some (nm, col) -> nm = LInt j /\ is_column rows j col
  | DFrame names rows => map fst cols = names /\ forall j nm col, Znth cols j = Some (nm, col) -> is_column rows j col
  end.
(** The column called [l]: for arrays its number, counted from the end if negative;
    for dataframes a name that is not repeated. *)
Definition column_named (d : cdata) (l : label) (col : list Qc) : Prop :=
  match d, l with
  | DArr (A2 c rows), LInt j => exists k, 0 <= k < c /\ (j = k \/ j = k - c) /\ is_column rows k col
  | DFrame names rows, _ =>
      exists k, Znth names k = Some l /\ (forall k', Znth names k' = Some l -> k' = k) /\ is_column rows k col
  | _, _ => False
  end.
(** The columns that color_features selects or computes from the colour data. *)
Inductive features (d : cdata) : cfeat -> list (label * list Qc) -> Prop :=
| F_none : forall cols, columns d cols -> features d FNone cols
| F_fit : forall fit tr call a cols, fit d = Ok a -> columns (DArr a) cols -> features d (FObj (Some fit) tr call) cols
| F_transform : forall tr call a cols, tr d = Ok a -> columns (DArr a) cols -> features d (FObj None (Some tr) call) cols
| F_call : forall call d' cols, call d = Ok d' -> columns d' cols -> features d (FObj None None (Some call)) cols
| F_col : forall l col, column_named d l col -> features d (FCol l) [(l, col)]
| F_cols : forall ls cols, Forall2 (fun l nc => fst nc = l /\ column_named d l (snd nc)) ls cols -> features d (FCols ls) cols.
(** Arrays and dataframes are rectangular. *)
Definition rectangular (d : cdata) : Prop :=
  match d with
  | DArr (A2 c rows) => forall row, In row rows -> zlen row = c
  | DFrame names rows => forall row, In row rows -> zlen row = zlen names
  | _ => True
  end.
Definition rows_of (d : cdata) : Z :=
  match d with DArr (A1 l) | DSeries l => zlen l | DArr (A2 _ rows) | DFrame _ rows => zlen rows end.
Definition cols_of (d : cdata) : Z :=
  match d with DArr (A1 _) | DSeries _ => 1 | DArr (A2 c _) => c | DFrame names _ => zlen names end.
(** The colour data used for [n] samples; by default 0, 1, ..., n-1. *)
Definition color_data_used (n : Z) (cd : option cdata) (d : cdata) : Prop :=
  match cd with
  | Some d' => d = d' /\ rectangular d /\ rows_of d = n /\ 0 < cols_of d
  | None => exists l, d = DArr (A1 l) /\ zlen l = n /\ forall k x, Znth l k = Some x -> x = qz k
  end.

(** ** Node colours and texts *)
(** The colour of a node: the statistic of the values at its elements. *)
Definition node_color (stat : list Qc -> res Qc) (col : list Qc) (v : mnode) (c : Qc) : Prop :=
  exists vals, Forall2 (fun i x => Znth col i = Some x) (n_elements v) vals /\ stat vals = Ok c.
Definition node_colors (stat : list Qc -> res Qc) (nodes : list mnode) (col colors : list Qc) : Prop :=
  Forall2 (node_color stat col) nodes colors.
(** The mean of a list that is not empty. *)
Definition is_mean (vals : list Qc) (m : Qc) : Prop :=
  (m * qz (zlen vals))%Qc = fold_right Qcplus 0%Qc vals.
(** The hover text of node number [i] with colour [c]. *)
Definition hover_text (fz : Z -> string) (fmt : shown -> string) (n : option Z) (i : Z) (v : mnode) (c : Qc)
  (text : string) : Prop :=
  exists s, shows n c s /\
  text = String.concat "<br>"
    ["Node ID: " ++ fz i; "Pullback set label: " ++ fz (n_pullback v); "Partial cluster label: " ++ fz (n_cluster v);
     "Node size: " ++ fz (zlen (n_elements v)); "Summary statistic: " ++ fmt s]%string.
Definition hover_texts fz fmt (n : option Z) (nodes : list mnode) (colors : list Qc) (texts : list string) : Prop :=
  zlen texts = zlen nodes /\ zlen colors = zlen nodes /\
  forall i v c text, Znth nodes i = Some v -> Znth colors i = Some c -> Znth texts i = Some text ->
    hover_text fz fmt n i v c text.
(** Formatted numbers contain no blanks. *)
Fixpoint no_blank (s : string) : Prop :=
  match s with EmptyString => True | String a t => a <> " "%char /\ no_blank t end.

(** ** Geometry *)
Definition proper_graph (n : Z) (g : mgraph) : Prop :=
  g_nodes g <> [] /\
  (forall v, In v (g_nodes g) -> n_elements v <> [] /\ forall i, In i (n_elements v) -> 0 <= i < n) /\
  (forall s t, In (s, t) (g_edges g) -> 0 <= s < zlen (g_nodes g) /\ 0 <= t < zlen (g_nodes g)).
(** One row of [dim] coordinates for each node. *)
Definition positions (dim : Z) (g : mgraph) (pos : list (list Qc)) : Prop :=
  zlen pos = zlen (g_nodes g) /\ forall p, In p pos -> zlen p = dim.
(** The node trace: coordinate [a] of node [k]. *)
Definition draws_nodes (dim : Z) (pos : list (list Qc)) (axes : list (list Qc)) : Prop :=
  zlen axes = dim /\ forall a l, Znth axes a = Some l -> is_column pos a l.
(** The edge trace: for each edge its ends and a gap. *)
Definition draws_edges (dim : Z) (pos : list (list Qc)) (es : list (Z * Z)) (axes : list (list (option Qc))) : Prop :=
  zlen axes = dim /\
  forall a l, Znth axes a = Some l ->
    zlen l = 3 * zlen es /\
    forall k s t, Znth es k = Some (s, t) ->
      exists p q x y, Znth pos s = Some p /\ Znth pos t = Some q /\ Znth p a = Some x /\ Znth q a = Some y /\
        Znth l (3 * k) = Some (Some x) /\ Znth l (3 * k + 1) = Some (Some y) /\ Znth l (3 * k + 2) = Some None.
(** Sizes: numbers of elements; the reference makes the largest node have diameter
    [scale]. *)
Definition sized (nodes : list mnode) (scale : Qc) (sizes : list Z) (ref : Qc) : Prop :=
  sizes = map (fun v => zlen (n_elements v)) nodes /\
  exists m, In m sizes /\ (forall k, In k sizes -> k <= m) /\ (ref * (scale * scale))%Qc = (qz 2 * qz m)%Qc.

(** ** Label colours *)
Definition extremes (l : list Qc) (mn mx : Qc) : Prop :=
  In mn l /\ In mx l /\ forall x, In x l -> (mn <= x)%Qc /\ (x <= mx)%Qc.
Definition varies (l : list Qc) : Prop := exists x y, In x l /\ In y l /\ x <> y.
(** A colour scale with increasing positions and proper channels. *)
Definition proper_scale (cs : colorscale_t) (stops : list (Qc * t3 Qc)) : Prop :=
  scale_denotes cs stops /\ increasing_stops stops /\ forall s c, In (s, c) stops -> valid_color c.
(** Each value is given its colour in the scale, from the least to the greatest. *)
Definition label_colors (stops : list (Qc * t3 Qc)) (vals : list Qc) (l : list string) : Prop :=
  exists mn mx, extremes vals mn mx /\
    Forall2 (fun v s => exists c, hex_denotes s c /\ color_at stops ((v - mn) / (mx - mn)) c) vals l.

(** The menu: one entry for each named list of node colours.  [stops]: the colour
    scale of the labels, if they are coloured; the first entry does not change them. *)
Definition shows_menu fz fmt (n : option Z) (nodes : list mnode) (stops : option (list (Qc * t3 Qc)))
  (named : list (label * list Qc)) (menu : list button) : Prop :=
  zlen menu = zlen named /\
  forall j nm cs b, Znth named j = Some (nm, cs) -> Znth menu j = Some b ->
    b_label b = nm /\ b_colors b = cs /\ hover_texts fz fmt n nodes cs (b_text b) /\
    match stops, b_bg b with
    | Some st, Some l => 0 < j /\ label_colors st cs l
    | Some _, None => j = 0
    | None, l => l = None
    end.

(** ** The whole figure, for a graph whose nodes are at [pos] in dimension [dim].
    [named]: names and node colours, the first being shown at the start. *)
Definition figure_shows fz fmt (n : option Z) (g : mgraph) (dim : Z) (pos : list (list Qc)) (scale : Qc)
  (user_bg : option string) (cs : colorscale_t) (stops : list (Qc * t3 Qc))
  (named : list (label * list Qc)) (fig : mfigure) : Prop :=
  draws_nodes dim pos (f_pos fig) /\ draws_edges dim pos (g_edges g) (f_edges fig) /\
  sized (g_nodes g) scale (f_sizes fig) (f_sizeref fig) /\
  (exists nm0, Znth named 0 = Some (nm0, f_colors fig)) /\
  hover_texts fz fmt n (g_nodes g) (f_colors fig) (f_text fig) /\
  f_scale fig = cs /\
  exists label_stops,
    match user_bg with
    | Some s => f_bg fig = BgUser s /\ label_stops = None
    | None =>
        (dim = 2 /\ f_bg fig = BgNone /\ label_stops = None) \/
        (dim = 3 /\ ~ varies (f_colors fig) /\ f_bg fig = BgWhite /\ label_stops = None) \/
        (dim = 3 /\ varies (f_colors fig) /\ label_stops = Some stops /\
           exists l, f_bg fig = BgNodes l /\ label_colors stops (f_colors fig) l)
    end /\
    match f_menu fig with
    | None => zlen named = 1
    | Some menu => 1 < zlen named /\ shows_menu fz fmt n (g_nodes g) label_stops named menu
    end.
(** The names and node colours of some columns. *)
Definition colored_by (st : list Qc -> res Qc) (g : mgraph) (cols named : list (label * list Qc)) : Prop :=
  Forall2 (fun c d => fst c = fst d /\ node_colors st (g_nodes g) (snd c) (snd d)) cols named.
(** The labels can be coloured: not in three dimensions if the first colours vary
    and others do not. *)
Definition labels_possible (dim : Z) (user_bg : option string) (named : list (label * list Qc)) : Prop :=
  dim = 3 -> user_bg = None -> forall nm0 cs0, Znth named 0 = Some (nm0, cs0) -> varies cs0 ->
  forall nm cs, In (nm, cs) named -> varies cs.

(** By default the colours are means. *)
Definition default_statistic (st : list Qc -> res Qc) : Prop := forall vals, vals <> [] -> exists m, st vals = Ok m /\ is_mean vals m.

(** A request for a plot: the data, the features, the statistic, the layout and the
    colour scale are proper, and [named] are the colours it asks for. *)
Definition plot_request (layout : mgraph -> Z -> res (list (list Qc))) (g : mgraph) (n_data : Z)
  (cd : option cdata) (d : cdata) (f : cfeat) (cols : list (label * list Qc)) (st : list Qc -> res Qc)
  (dim : Z) (pos : list (list Qc)) (scale : Qc) (cs : colorscale_t) (stops : list (Qc * t3 Qc))
  (named : list (label * list Qc)) : Prop :=
  0 < n_data /\ proper_graph n_data g /\ color_data_used n_data cd d /\ features d f cols /\ cols <> [] /\
  (forall nm col, In (nm, col) cols -> zlen col = n_data) /\
  colored_by st g cols named /\
  (dim = 2 \/ dim = 3) /\ layout g dim = Ok pos /\ positions dim g pos /\ scale <> 0%Qc /\
  proper_scale cs stops.

(** ** Choosing entries of the menu: an entry changes colours and texts, and label
    colours if it has some. *)
Record view := View { v_colors : list Qc; v_text : list string; v_bg : bg }.
Definition initial_view (f : mfigure) : view := View (f_colors f) (f_text f) (f_bg f).
Definition choose (v : view) (b : button) : view :=
  View (b_colors b) (b_text b) (match b_bg b with Some l => BgNodes l | None => v_bg v end).
Inductive chosen (menu : list button) : view -> list Z -> view -> Prop :=
| chosen_nil : forall v, chosen menu v [] v
| chosen_cons : forall v k b ks v', Znth menu k = Some b -> chosen menu (choose v b) ks v' -> chosen menu v (k :: ks) v'.
