(** Model of the static Mapper plots: gtda/mapper/utils/_visualization.py
    (lines 75-492) and plot_static_mapper_graph of gtda/mapper/visualization.py
    (lines 22-188).  Exact rational arithmetic, finite statistics. *)
From Coq Require Import Ascii String Qround.
From Verif Require Import Np Fl VecModel ColorTypes ColorModel MplotTypes.
Open Scope Z_scope.

(** ** Numbers *)
(** 10 ** k *)
Definition pow10 (k : Z) : Qc :=
  if 0 <=? k then qz (10 ^ k) else (/ qz (10 ^ (- k)))%Qc.
(** np.floor(np.log10(x)) for 0 < x (external, exact): the exponent is searched
    upwards or downwards from 0. *)
Fixpoint log_up (fuel : nat) (e : Z) (x : Qc) : Z :=
  match fuel with
  | O => e
  | S fuel => if Qcleb (pow10 (e + 1)) x then log_up fuel (e + 1) x else e
  end.
Fixpoint log_down (fuel : nat) (e : Z) (x : Qc) : Z :=
  match fuel with
  | O => e
  | S fuel => if Qcleb (pow10 e) x then e else log_down fuel (e - 1) x
  end.
Definition floor_log10 (x : Qc) : Z :=
  if Qcleb 1%Qc x then log_up (Z.to_nat (Qnum x)) 0 x
  else log_down (Pos.to_nat (Qden x)) (-1) x.
Definition qabs (x : Qc) : Qc := if Qcleb 0%Qc x then x else (- x)%Qc.
(** np.rint: halves to even (external) *)
Definition rint (x : Qc) : Z :=
  let n := Qfloor x in
  let d := (x - qz n)%Qc in
  if Qcltb d (Q2Qc (1 # 2)) then n
  else if Qcltb (Q2Qc (1 # 2)) d then n + 1
  else if Z.even n then n else n + 1.
(** np.round(x, k) *)
Definition np_round (x : Qc) (k : Z) : Qc := (qz (rint (x * pow10 k)) * pow10 (- k))%Qc.
(** Lines 80-86 _round_to_n_sig_figs *)
Definition round_to_n_sig_figs (x : Qc) (n : option Z) : shown :=
  match n with
  | None => Num x
  | Some n =>
      if Qceqb x 0 then Zero
      else Num (np_round x (- floor_log10 (qabs x) + (n - 1)))
  end.
(** max(l), np.min(l), np.max(l): ValueError if empty *)
Definition py_max (l : list Z) : res Z :=
  match l with [] => Err ValueError | x :: t => Ok (fold_left Z.max t x) end.
Definition np_min (l : list Qc) : res Qc :=
  match l with [] => Err ValueError | x :: t => Ok (fold_left (fun a b => if Qcleb a b then a else b) t x) end.
Definition np_max (l : list Qc) : res Qc :=
  match l with [] => Err ValueError | x :: t => Ok (fold_left (fun a b => if Qcleb a b then b else a) t x) end.
(** np.mean on a list that is not empty *)
Definition np_mean (l : list Qc) : res Qc :=
  Ok (fold_left Qcplus l 0%Qc / qz (zlen l))%Qc.

(** Lines 75-77 _set_node_sizeref *)
Definition set_node_sizeref (node_sizes : list Z) (node_scale : Qc) : res Qc :=
  do m <- py_max node_sizes;
  if Qceqb node_scale 0 then Err ZeroDivisionError
  else Ok (qz 2 * qz m / (node_scale * node_scale))%Qc.
(** Lines 89-91 _get_node_size *)
Definition get_node_size (node_elements : list (list Z)) : list Z := map zlen node_elements.

(** ** Two-dimensional arrays: number of columns and rows *)
Record mat := Mat { m_cols : Z; m_rows : list (list Qc) }.
(** a[:, j] *)
Definition mcol (m : mat) (j : Z) : res (list Qc) :=
  if (- m_cols m <=? j) && (j <? m_cols m) then mapM (fun row => py_get row j) (m_rows m)
  else Err IndexError.

(** ** Texts.  [fz]: formatting of integers, [fmt]: of statistics. *)
Section Texts.
Variable fz : Z -> string.
Variable fmt : shown -> string.
Open Scope string_scope.
(** Lines 94-106 _get_node_text, for one node. *)
Definition node_text (node_id pullback cluster size : Z) (stat : shown) : string :=
  "Node ID: " ++ fz node_id ++ "<br>Pullback set label: " ++ fz pullback ++ "<br>"
  ++ "Partial cluster label: " ++ fz cluster ++ "<br>Node size: "
  ++ fz size ++ "<br>Summary statistic: " ++ fmt stat.
Close Scope string_scope.
(** zip(...) of the five sequences, the last being the shortest that matters: the
    others have one entry for each node. *)
Fixpoint get_node_text (i : Z) (nodes : list mnode) (stats : list shown) : list string :=
  match nodes, stats with
  | v :: nodes, s :: stats =>
      node_text i (n_pullback v) (n_cluster v) (zlen (n_elements v)) s :: get_node_text (i + 1) nodes stats
  | _, _ => []
  end.

(** Lines 109-115 _get_node_statistics *)
Definition get_node_statistics (color_data : mat) (node_elements : list (list Z))
  (stat : list Qc -> res Qc) : res mat :=
  do rows <- mapM (fun itr =>
       mapM (fun i => do col <- mapM (fun r => do row <- py_get (m_rows color_data) r; py_get row i) itr; stat col)
         (arange (m_cols color_data))) node_elements;
  Ok (Mat (m_cols color_data) rows).

(** s.rfind(" ") *)
Fixpoint rfind_space (s : string) : Z :=
  match s with
  | EmptyString => -1
  | String a t =>
      let r := rfind_space t in
      if 0 <=? r then r + 1 else if Ascii.eqb a " " then 0 else -1
  end.
(** s[:pos] *)
Definition str_prefix (s : string) (pos : Z) : string :=
  substring 0 (Z.to_nat (if pos <? 0 then pos + Z.of_nat (String.length s) else pos)) s.
(** Lines 125-129 *)
Definition replace_summary_statistic (n : option Z) (current : string) (new : Qc) : string :=
  (str_prefix current (rfind_space current) ++ " " ++ fmt (round_to_n_sig_figs new n))%string.
(** list(map(f, a, b)) *)
Fixpoint map2 {A B C} (f : A -> B -> C) (a : list A) (b : list B) : list C :=
  match a, b with x :: a, y :: b => f x y :: map2 f a b | _, _ => [] end.
(** Lines 118-167 _get_column_color_buttons *)
Definition get_column_color_buttons (colors : mat) (hovertext : list string)
  (scale : option colorscale_t) (n : option Z) (names : option (list label)) : res (list button) :=
  do c0 <- mcol colors 0;
  match names with
  | None => Err TypeError
  | Some names =>
      do l0 <- py_get names 0;
      do rest <- mapM (fun column =>
        do node_colors <- mcol colors column;
        do l <- py_get names column;
        do hl <- (match scale with
                  | None => Ok None
                  | Some scale =>
                      do min_col <- np_min node_colors;
                      do max_col <- np_max node_colors;
                      rmap Some (hex_colors_for_vals node_colors min_col max_col scale)
                  end);
        Ok (Button l node_colors (map2 (replace_summary_statistic n) hovertext node_colors) hl))
        (tl (arange (zlen names)));
      Ok (Button l0 c0 hovertext None :: rest)
  end.

(** ** Validation of the arguments on colours *)
(** check_array(a, ensure_2d=False): at least one row and one column (external) *)
Definition check_shape (a : arr) : res unit :=
  match a with
  | A1 l => if zlen l =? 0 then Err ValueError else Ok tt
  | A2 c rows => if (zlen rows =? 0) || (c =? 0) then Err ValueError else Ok tt
  end.
(** to_numpy() *)
Definition to_numpy (d : cdata) : arr :=
  match d with DArr a => a | DFrame names rows => A2 (zlen names) rows | DSeries l => A1 l end.
(** len(a) *)
Definition alen (a : arr) : Z := match a with A1 l => zlen l | A2 _ rows => zlen rows end.
(** a.reshape((len(a), -1)): numpy refuses to infer the second dimension if the first is 0 *)
Definition reshape_cols (a : arr) : res mat :=
  if alen a =? 0 then Err ValueError
  else match a with A1 l => Ok (Mat 1 (map (fun x => [x]) l)) | A2 c rows => Ok (Mat c rows) end.
Definition label_eqb (a b : label) : bool :=
  match a, b with LInt x, LInt y => x =? y | LStr s, LStr t => String.eqb s t | _, _ => false end.
(** Positions of the columns with a given name *)
Definition named (names : list label) (l : label) : list Z :=
  flat_map (fun iv => if label_eqb l (snd iv) then [fst iv] else []) (mapi (fun i v => (i, v)) names).
(** color_data[color_features] on a dataframe (external, pandas): a column as a
    series, or as a dataframe if the name is repeated; a list of columns; a list of
    booleans selects rows.  KeyError if a name is missing. *)
Definition frame_columns (names : list label) (rows : list (list Qc)) (pos : list Z) : res cdata :=
  do nm <- gather names pos;
  do rs <- mapM (fun row => gather row pos) rows;
  Ok (DFrame nm rs).
Definition frame_get (names : list label) (rows : list (list Qc)) (f : cfeat) : res cdata :=
  match f with
  | FCol l =>
      match named names l with
      | [] => Err KeyError
      | [j] => do col <- mapM (fun row => py_get row j) rows; Ok (DSeries col)
      | pos => frame_columns names rows pos
      end
  | FCols ls =>
      do pos <- mapM (fun l => match named names l with [] => Err KeyError | p => Ok p end) ls;
      frame_columns names rows (concat pos)
  | FMask b =>
      if zlen b =? zlen rows
      then Ok (DFrame names (flat_map (fun br : bool * list Qc => if fst br then [snd br] else []) (combine b rows)))
      else Err ValueError
  | _ => Err KeyError
  end.
(** color_data[:, color_features] on an array (external, numpy).  A mask must have
    as many entries as there are columns. *)
Definition array_get (a : arr) (f : cfeat) : res arr :=
  match a with
  | A1 _ => Err IndexError
  | A2 c rows =>
      match f with
      | FCol (LInt j) => rmap A1 (mcol (Mat c rows) j)
      | FCols ls =>
          do js <- mapM (fun l => match l with LInt j => if (- c <=? j) && (j <? c) then Ok j else Err IndexError
                                  | LStr _ => Err IndexError end) ls;
          do rs <- mapM (fun row => gather row js) rows;
          Ok (A2 (zlen js) rs)
      | FMask b =>
          if zlen b =? c then
            do rs <- mapM (fun row => gather row (flat_map (fun ib : Z * bool => if snd ib then [fst ib] else []) (mapi (fun i v => (i, v)) b))) rows;
            Ok (A2 (zlen (filter (fun v => v) b)) rs)
          else Err IndexError
      | _ => Err IndexError
      end
  end.
(** The statistic after validation: a function, or the node colours. *)
Inductive vstat := VCall (f : list Qc -> res Qc) | VArr (m : mat).
(** Booleans are rendered "True" and "False" in the menu. *)
Definition label_of_bool (b : bool) : label := LStr (if b then "True" else "False")%string.

(** Lines 192-208: default and length check. *)
Definition checked_color_data (n_data : Z) (color_data : option cdata) : res cdata :=
  let color_data := match color_data with None => DArr (A1 (map qz (arange n_data))) | Some d => d end in
  do _ <- check_shape (to_numpy color_data);
  if alen (to_numpy color_data) =? n_data then Ok color_data else Err ValueError.
(** Lines 210-237: the statistic, and the names set there. *)
Definition checked_statistic (n_nodes : Z) (stat : nstat) (interactive : bool)
  : res (vstat * option (list label)) :=
  match stat with
  | NNone => Ok (VCall np_mean, None)
  | NCall f => Ok (VCall f, None)
  | NOther => Err ValueError
  | NArr a =>
      if interactive then Err ValueError
      else
        do _ <- check_shape a;
        if negb (alen a =? n_nodes) then Err ValueError
        else do m <- reshape_cols a;
             Ok (VArr m, match a with A1 _ => None | A2 c _ => Some (map LInt (arange c)) end)
  end.
(** Lines 239-274: application of color_features; [None]: the names are left as
    they were. *)
Definition apply_color_features (color_data : cdata) (f : cfeat)
  : res (arr * option (option (list label))) :=
  match f with
  | FTyped => Err ValueError
  | FObj (Some fit) _ _ => do a <- fit color_data; Ok (a, None)
  | FObj None (Some tr) _ => do a <- tr color_data; Ok (a, None)
  | FObj None None (Some call) =>
      do d <- call color_data;
      Ok (to_numpy d, match d with DFrame names _ => Some (Some names) | _ => None end)
  | FNone => Ok (to_numpy color_data, match color_data with DFrame names _ => Some (Some names) | _ => None end)
  | _ =>
      match color_data with
      | DFrame names rows =>
          do d <- frame_get names rows f;
          Ok (to_numpy d, Some (match d with DFrame names _ => Some names | _ => None end))
      | DSeries _ => Err ValueError
      | DArr a =>
          do a' <- array_get a f;
          Ok (a', match a', f with
                  | A2 _ _, FCols ls => Some (Some ls)
                  | A2 _ _, FMask b => Some (Some (map label_of_bool b))
                  | _, _ => None
                  end)
      end
  end.
(** Lines 190-284 _validate_color_kwargs *)
Definition validate_color_kwargs (n_nodes n_data : Z) (color_data : option cdata) (f : cfeat)
  (stat : nstat) (interactive : bool) : res (mat * option (list label) * vstat) :=
  do color_data <- checked_color_data n_data color_data;
  do st <- checked_statistic n_nodes stat interactive;
  let '(stat, names) := st in
  do af <- apply_color_features color_data f;
  let '(transformed, new_names) := af in
  let names := match new_names with Some nm => nm | None => names end in
  let names := match transformed, names with
               | A2 c _, None => Some (map LInt (arange c))
               | _, _ => names
               end in
  do m <- reshape_cols transformed;
  Ok (m, names, stat).

(** ** The traces *)
Record traces := Traces {
  t_edges : list (list (option Qc)); t_pos : list (list Qc); t_sizes : list Z;
  t_sizeref : Qc; t_colors : list Qc; t_text : list string }.
(** One axis of the edge trace, lines 335-352 and 369-377. *)
Definition edge_axis (pos : list (list Qc)) (es : list (Z * Z)) (a : Z) : res (list (option Qc)) :=
  do ll <- mapM (fun e =>
     do s <- py_get pos (fst e); do x <- py_get s a;
     do t <- py_get pos (snd e); do y <- py_get t a;
     Ok [Some x; Some y; None]) es;
  Ok (concat ll).
(** Lines 287-382 _calculate_graph_data.  [layout]: the coordinates computed by
    igraph, one row for each node. *)
Definition calculate_graph_data (layout : mgraph -> Z -> res (list (list Qc))) (graph : mgraph)
  (color_data : mat) (stat : vstat) (layout_dim : Z) (n : option Z) (node_scale : Qc)
  : res (traces * mat) :=
  let node_elements := map n_elements (g_nodes graph) in
  do colors <- (match stat with
                | VCall f => get_node_statistics color_data node_elements f
                | VArr m => Ok m
                end);
  let node_sizes := get_node_size node_elements in
  do sizeref <- set_node_sizeref node_sizes node_scale;
  do c0 <- mcol colors 0;
  let text := get_node_text 0 (g_nodes graph) (map (fun x => round_to_n_sig_figs x n) c0) in
  if negb ((layout_dim =? 2) || (layout_dim =? 3)) then Err ValueError
  else
    do pos <- layout graph layout_dim;
    do edges <- mapM (edge_axis pos (g_edges graph)) (arange layout_dim);
    do axes <- mapM (fun a => mapM (fun p => py_get p a) pos) (arange layout_dim);
    Ok (Traces edges axes node_sizes sizeref c0 text, colors).

(** Lines 385-492 _produce_static_figure.  Of plotly_params only the colour of the
    hover labels and the colour scale are modelled.  [viridis]: the default scale. *)
Definition produce_static_figure (viridis : colorscale_t) (tr : traces) (colors : mat)
  (names : option (list label)) (layout_dim : Z) (n : option Z) (pp : pparams) : res mfigure :=
  let scale := match pp_scale pp with Some s => s | None => viridis end in
  do hl <- (match pp_bg pp with
            | Some s => Ok (BgUser s, None)
            | None =>
                if layout_dim =? 3 then
                  do c0 <- mcol colors 0;
                  do min_col <- np_min c0;
                  do max_col <- np_max c0;
                  match hex_colors_for_vals c0 min_col max_col scale with
                  | Ok l => Ok (BgNodes l, Some scale)
                  | Err _ => Ok (BgWhite, None)
                  end
                else Ok (BgNone, None)
            end);
  let '(bgc, scale_for_hover) := hl in
  do menu <- (if 1 <? m_cols colors
              then rmap Some (get_column_color_buttons colors (t_text tr) scale_for_hover n names)
              else Ok None);
  Ok (MFigure (t_edges tr) (t_pos tr) (t_sizes tr) (t_sizeref tr) (t_colors tr) scale (t_text tr) bgc menu).

(** visualization.py lines 167-188 plot_static_mapper_graph.  [graph]: the result
    of fit_transform of the pipeline; [n_data]: number of samples. *)
Definition plot_static_mapper_graph (viridis : colorscale_t)
  (layout : mgraph -> Z -> res (list (list Qc))) (graph : res mgraph) (n_data : Z)
  (color_data : option cdata) (f : cfeat) (stat : nstat) (layout_dim : Z) (n : option Z)
  (node_scale : Qc) (pp : pparams) : res mfigure :=
  do graph <- graph;
  do v <- validate_color_kwargs (zlen (g_nodes graph)) n_data color_data f stat false;
  let '(color_data, names, stat) := v in
  do tc <- calculate_graph_data layout graph color_data stat layout_dim n node_scale;
  let '(tr, colors) := tc in
  produce_static_figure viridis tr colors names layout_dim n pp.
End Texts.
