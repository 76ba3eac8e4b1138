(** Specification of what the plots of preprocessed diagrams show (C100). *)
From Verif Require Import Np Fl DiagTypes DiagSpec PlotTypes PlotSpec.
Open Scope Z_scope.

(** [t] is the trace named [n] whose markers are the points [l], in this order: abscissae are
    births, ordinates deaths (one common height for the points that never die), and the hover
    texts give the exact coordinates. *)
Definition markers_at (l : diagram) (n : dim_name) (t : trace) : Prop :=
  exists top texts,
    t = Markers n (map pb l) (map (fun p => match pd p with PInf => Fin top | d => d end) l) texts /\
    Forall2 (fun p h => hv_birth h = pb p /\ hv_death h = pd p) l texts.

(** The figure has one marker trace for each dimension in [dims], in this order, showing
    [points q]; its other traces are lines. *)
Definition figure_shows (fig : figure) (dims : list fl) (points : fl -> diagram) : Prop :=
  exists first markers last, f_traces fig = first :: markers ++ last /\
    (exists a b, first = Diagonal a b) /\
    (forall t, In t last -> exists a b c, t = Infinity a b c) /\
    Forall2 (fun q t => exists n, named q n /\ markers_at (points q) n t) dims markers.

(** The dimension labels of a collection of diagrams: integers, or +inf if forgotten. *)
Definition labelled (Y : list diagram) : Prop :=
  forall y p, In y Y -> In p y -> exists n, named (pq p) n.

(** A point with its coordinates divided by [s]. *)
Definition shrunk (s : Qc) (p : pt) : pt :=
  let f := fun v => match v with Fin x => Fin (x / s)%Qc | v => v end in
  Pt (f (pb p)) (f (pd p)) (pq p).
