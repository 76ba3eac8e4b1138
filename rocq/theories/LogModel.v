(** Model of the logs of interactive Mapper plots: gtda/mapper/utils/_logging.py and the use made of it
    in gtda/mapper/visualization.py lines 507-619.

    All interactive plots of a process log through the one logger of the module.  What the pipeline, the
    figure and the traceback module do is given by the event; the handlers of parent loggers are not
    modelled.  ipywidgets' clear_output is taken to remove all outputs. *)
From Coq Require Import String.
From Verif Require Import Np.
Open Scope string_scope.
Open Scope list_scope.
Open Scope Z_scope.

(** A log record: when it is created, its level, its message, and the text of a traceback. *)
Inductive level := INFO | ERROR.
Record record := Rec { r_time : Z; r_level : level; r_message : string; r_traceback : option string }.
(** visualization.py lines 616-617: "%(asctime)s - [%(levelname)s] %(message)s"; logging.Formatter adds
    the traceback on the next lines *)
Definition newline : string := String (Ascii.ascii_of_nat 10) EmptyString.
Definition levelname (l : level) : string := match l with INFO => "INFO" | ERROR => "ERROR" end.
Definition format (asctime : Z -> string) (r : record) : string :=
  (asctime (r_time r) ++ " - [" ++ levelname (r_level r) ++ "] " ++ r_message r ++
   match r_traceback r with None => "" | Some t => newline ++ t end)%string.

(** _logging.py lines 10-18: a handler owns an Output widget, here the texts of its outputs (of name
    stdout and type stream), newest first; with it the value of the "Valid parameters" widget of
    its plot (visualization.py lines 637-642) *)
Record plot := MkPlot { outputs : list string; valid : bool }.
(** _logging.py lines 20-28 emit *)
Definition emit (asctime : Z -> string) (r : record) (p : plot) : plot :=
  MkPlot ((format asctime r ++ newline)%string :: outputs p) (valid p).
(** _logging.py lines 34-36 clear_logs *)
Definition clear_logs (p : plot) : plot := MkPlot [] (valid p).

(** What happens when a parameter is changed: the parameters are refused, or the graph cannot be
    computed or drawn, or all is well.  A traceback has its lines before the last one, and the last one. *)
Inductive outcome :=
| Updated
| Refused (first_lines : list string) (last_line : string)
| Failed (first_lines : list string) (last_line : string).
(** Events: plot_interactive is called; a widget of the k-th plot is changed, with
    the times at which the two messages are created. *)
Inductive event := Open | Change (k : Z) (t t' : Z) (o : outcome).

(** logging.Logger: a record goes to all handlers that were added *)
Definition log (asctime : Z -> string) (r : record) (st : list plot) : list plot := map (emit asctime r) st.
(** What is done with one plot, the others staying as they are. *)
Fixpoint at_plot (k : Z) (f : plot -> plot) (st : list plot) : list plot :=
  match st with
  | [] => []
  | p :: st => if k =? 0 then f p :: st else p :: at_plot (k - 1) f st
  end.
Definition set_valid (b : bool) (p : plot) : plot := MkPlot (outputs p) b.
(** traceback.format_exc as one string *)
Definition join_lines (l : list string) (last : string) : string :=
  fold_right (fun a b => (a ++ newline ++ b)%string) last l.
(** visualization.py lines 591-595: the except clause *)
Definition on_exception asctime k t (first_lines : list string) (last_line : string) (st : list plot) : list plot :=
  at_plot k (set_valid false) (log asctime (Rec t ERROR last_line (Some (join_lines first_lines last_line))) st).
(** visualization.py lines 507-595 on_parameter_change and 613-619 *)
Definition step (asctime : Z -> string) (st : list plot) (e : event) : list plot :=
  match e with
  | Open => st ++ [MkPlot [] true]
  | Change k t t' o =>
      let st := at_plot k clear_logs st in
      match o with
      | Refused l s => on_exception asctime k t' l s st
      | Updated => at_plot k (set_valid true) (log asctime (Rec t INFO "Updating figure..." None) st)
      | Failed l s => on_exception asctime k t' l s (log asctime (Rec t INFO "Updating figure..." None) st)
      end
  end.
Definition run (asctime : Z -> string) (h : list event) : list plot := fold_left (step asctime) h [].
