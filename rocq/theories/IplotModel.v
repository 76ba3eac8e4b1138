(** Model of MapperInteractivePlotter (gtda/mapper/visualization.py lines 302-735):
    the state of the plotter and its handler of widget changes. *)
From Coq Require Import Ascii String.
From Verif Require Import Np Fl ColorTypes ColorModel MplotTypes MplotModel IplotTypes.
Open Scope Z_scope.

(** ** Dictionaries of parameters *)
Fixpoint dget (d : params) (k : string) : option pval :=
  match d with [] => None | (k', v) :: d => if String.eqb k k' then Some v else dget d k end.
Fixpoint dset (d : params) (k : string) (v : pval) : params :=
  match d with
  | [] => []
  | (k', v') :: d => if String.eqb k k' then (k', v) :: d else (k', v') :: dset d k v
  end.
(** pipeline.set_params for one parameter of the pipeline (see C49 for its routing):
    ValueError if there is none of that name. *)
Definition set_param (pipe : params) (k : string) (v : pval) : res params :=
  match dget pipe k with None => Err ValueError | Some _ => Ok (dset pipe k v) end.

(** isinstance(value, float), ...; booleans are integers in Python *)
Definition is_float (v : pval) : bool := match v with PFloat _ => true | _ => false end.
Definition is_int (v : pval) : bool := match v with PInt _ | PBool _ => true | _ => false end.
Definition is_str (v : pval) : bool := match v with PStr _ => true | _ => false end.
Definition is_bool (v : pval) : bool := match v with PBool _ => true | _ => false end.
(** Lines 477-518 get_widgets_per_param: one widget for each float, boolean, integer
    or string, holding its value. *)
Definition widgets_of (d : params) : params :=
  filter (fun kv : string * pval => let v := snd kv in is_float v || is_bool v || is_int v || is_str v) d.
(** What a widget accepts: FloatText, ToggleButton, IntText, Text. *)
Definition accepts (old new : pval) : bool :=
  match old, new with
  | PFloat _, PFloat _ | PBool _, PBool _ | PInt _, PInt _ | PStr _, PStr _ => true
  | _, _ => false
  end.
Definition pval_eqb (a b : pval) : bool :=
  match a, b with
  | PInt x, PInt y => x =? y
  | PFloat x, PFloat y => Qceqb x y
  | PBool x, PBool y => Bool.eqb x y
  | PStr x, PStr y | POther x, POther y => String.eqb x y
  | _, _ => false
  end.

(** ** The variables of [plot] that the handler uses *)
Record session := Session {
  s_cover : params; s_cluster : params; s_nerve : params;
  s_color : mat; s_names : option (list label); s_stat : vstat;
  s_scale : option colorscale_t }.
(** The attributes of the plotter, the values of the widgets and the validation box. *)
Record istate := IState {
  i_widgets : params; i_pipe : params; i_graph : mgraph; i_summ : mat;
  i_fig : mfigure; i_valid : bool }.

Section Plotter.
Variable fz : Z -> string.
Variable fmt : shown -> string.
Variable viridis : colorscale_t.
Variable layout : mgraph -> Z -> res (list (list Qc)).
(** pipeline.fit_transform(data), as a function of the parameters *)
Variable run : params -> res mgraph.
(** Whether changes of the figure made in batch_update before an exception are kept
    (plotly: external). *)
Variable flush : bool.
(** Arguments of [plot] that the handler uses. *)
Variable layout_dim : Z.
Variable n : option Z.
Variable node_scale : Qc.

(** Lines 523-537: one of the three loops.  The second component tells whether it
    came to its end. *)
Fixpoint set_loop (sel : pval -> bool) (d widgets pipe : params) : params * bool :=
  match d with
  | [] => (pipe, true)
  | (k, v) :: d =>
      if sel v then
        match dget widgets k with
        | None => (pipe, false)
        | Some w =>
            match set_param pipe k w with
            | Err _ => (pipe, false)
            | Ok pipe => set_loop sel d widgets pipe
            end
        end
      else set_loop sel d widgets pipe
  end.
Definition int_float_str (v : pval) : bool := is_int v || is_float v || is_str v.
Definition int_bool (v : pval) : bool := is_int v || is_bool v.
Definition set_all (s : session) (widgets pipe : params) : params * bool :=
  let '(pipe, ok) := set_loop int_float_str (s_cover s) widgets pipe in
  if negb ok then (pipe, false) else
  let '(pipe, ok) := set_loop int_float_str (s_cluster s) widgets pipe in
  if negb ok then (pipe, false) else
  set_loop int_bool (s_nerve s) widgets pipe.

(** Lines 555-562 and 564-579: the traces. *)
Definition with_bg (f : mfigure) (l : list string) : mfigure :=
  MFigure (f_edges f) (f_pos f) (f_sizes f) (f_sizeref f) (f_colors f) (f_scale f) (f_text f) (BgNodes l) (f_menu f).
Definition with_traces (f : mfigure) (tr : traces) : mfigure :=
  MFigure (t_edges tr) (t_pos tr) (t_sizes tr) (t_sizeref tr) (t_colors tr) (f_scale f) (t_text tr) (f_bg f) (f_menu f).
(** Lines 581-605 *)
Definition with_menu (f : mfigure) (menu : list button) : mfigure :=
  MFigure (f_edges f) (f_pos f) (f_sizes f) (f_sizeref f) (f_colors f) (f_scale f) (f_text f) (f_bg f) (Some menu).

(** Lines 520-611 on_parameter_change *)
Definition on_parameter_change (s : session) (st : istate) : istate :=
  let '(pipe, ok) := set_all s (i_widgets st) (i_pipe st) in
  if negb ok then IState (i_widgets st) pipe (i_graph st) (i_summ st) (i_fig st) false
  else
  match run pipe with
  | Err _ => IState (i_widgets st) pipe (i_graph st) (i_summ st) (i_fig st) false
  | Ok graph =>
  match calculate_graph_data fz fmt layout graph (s_color s) (s_stat s) layout_dim n node_scale with
  | Err _ => IState (i_widgets st) pipe graph (i_summ st) (i_fig st) false
  | Ok (tr, colors) =>
  match (match s_scale s with
         | None => Ok (i_fig st)
         | Some scale =>
             do c0 <- mcol colors 0;
             do min_col <- np_min c0;
             do max_col <- np_max c0;
             rmap (with_bg (i_fig st)) (hex_colors_for_vals c0 min_col max_col scale)
         end) with
  | Err _ => IState (i_widgets st) pipe graph colors (i_fig st) false
  | Ok fig =>
  let fig := with_traces fig tr in
  if 1 <? m_cols colors then
    match get_column_color_buttons fmt colors (t_text tr) (s_scale s) n (s_names s) with
    | Err _ => IState (i_widgets st) pipe graph colors (if flush then fig else i_fig st) false
    | Ok menu => IState (i_widgets st) pipe graph colors (with_menu fig menu) true
    end
  else IState (i_widgets st) pipe graph colors fig true
  end end end.

(** A change of a widget (lines 613-616 and ipywidgets): the handler is called if the
    value is another one that the widget accepts. *)
Definition change (s : session) (st : istate) (kv : string * pval) : istate :=
  let '(k, v) := kv in
  match dget (i_widgets st) k with
  | None => st
  | Some old =>
      if accepts old v && negb (pval_eqb old v)
      then on_parameter_change s (IState (dset (i_widgets st) k v) (i_pipe st) (i_graph st) (i_summ st) (i_fig st) (i_valid st))
      else st
  end.
Fixpoint changes (s : session) (st : istate) (h : list (string * pval)) : istate :=
  match h with [] => st | kv :: h => changes s (change s st kv) h end.

(** Lines 471-475 and 637-692: [plot], from the parameters of the pipeline (the
    result of get_mapper_params) to the initial state. *)
Definition interactive_plot (mapper_params : params) (n_data : Z) (color_data : option cdata)
  (f : cfeat) (stat : nstat) (pp : pparams) : res (session * istate) :=
  let cover := filter (fun kv : string * pval => String.prefix "cover__" (fst kv)) mapper_params in
  let cluster := filter (fun kv : string * pval => String.prefix "clusterer__" (fst kv)) mapper_params in
  let nerve := filter (fun kv : string * pval => String.eqb (fst kv) "min_intersection" || String.eqb (fst kv) "contract_nodes") mapper_params in
  do graph <- run mapper_params;
  do v <- validate_color_kwargs (zlen (g_nodes graph)) n_data color_data f stat true;
  let '(color_data, names, stat) := v in
  do tc <- calculate_graph_data fz fmt layout graph color_data stat layout_dim n node_scale;
  let '(tr, colors) := tc in
  do fig <- produce_static_figure fmt viridis tr colors names layout_dim n pp;
  let scale :=
    if layout_dim =? 3 then
      match f_bg fig, pp_bg pp with
      | BgWhite, _ => None
      | _, Some _ => None
      | _, None => Some (f_scale fig)
      end
    else None in
  Ok (Session cover cluster nerve color_data names stat scale,
      IState (widgets_of cover ++ widgets_of cluster ++ widgets_of nerve) mapper_params graph colors fig true).
End Plotter.
