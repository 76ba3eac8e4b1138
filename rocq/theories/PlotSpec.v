(** Specifications for the plots (C68-C70), independent of the model. *)
From Verif Require Import Np Fl DiagTypes DiagSpec VecSpec PlotTypes.
Open Scope Z_scope.

(** ** Persistence diagrams *)

(** Births are finite, deaths finite or +inf. *)
Definition drawable (x : diagram) : Prop :=
  forall p, In p x -> (exists b, pb p = Fin b) /\ (pd p = PInf \/ exists d, pd p = Fin d).

(** The points of dimension [q] off the diagonal, in the order of the array. *)
Definition shown_rows (q : fl) (x : diagram) : diagram :=
  filter (fun p => feq (pq p) q && negb (feq (pb p) (pd p))) x.

(** [v] is a finite coordinate of an off-diagonal point of [x]. *)
Definition off_diagonal_coordinate (x : diagram) (v : Qc) : Prop :=
  exists p, In p x /\ pb p <> pd p /\ (pb p = Fin v \/ pd p = Fin v).
(** Some point never dies. *)
Definition has_infinite_point (x : diagram) : Prop := exists p, In p x /\ pd p = PInf.

(** More generally births may be -inf, as long as an off-diagonal point, if there is any, has a
    finite coordinate somewhere in the diagram. *)
Definition plottable (x : diagram) : Prop :=
  (forall p, In p x -> (pb p = NInf \/ exists b, pb p = Fin b) /\ (pd p = PInf \/ exists d, pd p = Fin d)) /\
  ((exists p, In p x /\ pb p <> pd p) -> exists v, off_diagonal_coordinate x v).

(** Smallest and largest finite coordinates of off-diagonal points; 0 and 1 if
    there are none. *)
Definition is_extent (x : diagram) (lo hi : Qc) : Prop :=
  is_least lo (off_diagonal_coordinate x) /\ is_greatest hi (off_diagonal_coordinate x) \/
  (forall v, ~ off_diagonal_coordinate x v) /\ lo = 0%Qc /\ hi = 1%Qc.

(** The number of rows of [x] equal to [p]. *)
Fixpoint copies (p : pt) (x : diagram) : Z :=
  match x with
  | [] => 0
  | p' :: t => (if feq (pb p) (pb p') && feq (pd p) (pd p') && feq (pq p) (pq p') then 1 else 0)
               + copies p t
  end.

(** Dimension labels and legend names. *)
Definition named (q : fl) (n : dim_name) : Prop :=
  q = PInf /\ n = AnyDimension \/ exists k, q = fz k /\ n = HName k.

(** The marker trace of dimension [q] when infinite deaths are drawn at height
    [top]. *)
Definition shows (x : diagram) (top : Qc) (q : fl) (t : trace) : Prop :=
  exists n, named q n /\
    t = Markers n (map pb (shown_rows q x))
          (map (fun p => match pd p with PInf => Fin top | d => d end) (shown_rows q x))
          (map (fun p => Hover (pb p) (pd p)
                  (if 1 <? copies p x then Some (copies p x) else None)) (shown_rows q x)).

(** The dimensions a plot is asked for: those given or else all those present, in
    increasing order. *)
Definition requested (x : diagram) (given : option (list fl)) (dims : list fl) : Prop :=
  match given with
  | Some l => dims = l
  | None => increasing dims /\ forall q, In q dims <-> In q (map pq x)
  end.

(** ** Heat maps: plotly draws entry (r, c) at abscissa [x[c]] and ordinate [y[r]];
    the vertical axis points down iff it is reversed. *)
Definition drawn_at (h : heatmap) (u v : Qc) (value : Qc) : Prop :=
  exists xs ys r c, h_x h = Some xs /\ h_y h = Some ys /\
    Znth xs c = Some u /\ Znth ys r = Some v /\ entry (h_z h) r c = Some value.

(** [c] is column [j] of the array with rows [X]. *)
Definition is_column (X : list (list Qc)) (j : Z) (c : list Qc) : Prop :=
  Forall2 (fun row v => Znth row j = Some v) X c.
(** Python indexing: [x] is element [i] of [l], counted from the end if [i] is
    negative. *)
Definition item {A} (l : list A) (i : Z) (x : A) : Prop :=
  Znth l i = Some x \/ i < 0 /\ Znth l (zlen l + i) = Some x.
(** The positions a Betti plot is asked for. *)
Definition asked_positions (n : Z) (given : option (list Z)) (dims : list Z) : Prop :=
  match given with
  | Some l => dims = l
  | None => zlen dims = n /\ forall i, 0 <= i < n -> Znth dims i = Some i
  end.
