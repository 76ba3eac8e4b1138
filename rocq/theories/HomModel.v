(** Model of gtda/homology/simplicial.py and gtda/homology/cubical.py: everything done by the
    persistent homology transformers around the calls to the backends (ripser, flagser, GUDHI),
    which are arbitrary functions here.  Input validation is in ValidModel, the
    post-processing of the backend's output in DiagModel. *)
From Verif Require Import Np Fl Nd DiagModel.
From Verif Require CoverModel.
Open Scope Z_scope.

(** Python's sorted on integers *)
Definition sorted_ints (l : list Z) : list Z := CoverModel.sort_by Z.leb l.

(** What fit stores: _homology_dimensions, _min_homology_dimension, _max_homology_dimension and
    infinity_values_ *)
Record fitted := Fitted { f_dims : list Z; f_min : Z; f_max : Z; f_inf : fl }.

(** simplicial.py lines 235-241, 621-627, 905-911, 1160-1166, 1386-1392, 1664-1671: the end of all
    fit methods; [threshold] is max_edge_length or max_edge_weight.  Only FlagserPersistence
    stores the smallest dimension. *)
Definition hom_fit (homology_dimensions : list Z) (threshold : fl) (infinity_values : option fl)
  : res fitted :=
  let infinity_values_ := match infinity_values with None => threshold | Some v => v end in
  let dims := sorted_ints homology_dimensions in
  do lo <- py_get dims 0;
  do hi <- py_get dims (-1);
  Ok (Fitted dims lo hi infinity_values_).

(** The end of all transform methods, e.g. simplicial.py lines 302-310: one diagram per sample
    (Parallel keeps the order), then post-processing. *)
Definition hom_transform {A} (junk : pt) (diagram_of : A -> backend) (f : fitted) (reduced : bool)
  (X : list A) : res (list diagram) :=
  postprocess_diagrams junk (map diagram_of X) (f_dims f) (f_inf f) reduced.

(** VietorisRipsPersistence, simplicial.py lines 176-185 and 302-310 ([ripser maxdim thresh x];
    its other arguments are fixed).  WeightedRipsPersistence differs by the backend only. *)
Definition vr_fit_transform {A} (junk : pt) (ripser : Z -> fl -> A -> list (list (fl * fl)))
  (homology_dimensions : list Z) (max_edge_length : fl) (infinity_values : option fl)
  (reduced : bool) (X : list A) : res (list diagram) :=
  do f <- hom_fit homology_dimensions max_edge_length infinity_values;
  hom_transform junk (fun x => ByDimension (ripser (f_max f) max_edge_length x)) f reduced X.

(** SparseRipsPersistence (lines 855-868, 958-965) and EuclideanCechPersistence (lines 1348-1356,
    1433-1440): [gudhi threshold max_dimension x] *)
Definition gudhi_fit_transform {A} (junk : pt) (gudhi : fl -> Z -> A -> list (Z * (fl * fl)))
  (homology_dimensions : list Z) (max_edge_length : fl) (infinity_values : option fl)
  (reduced : bool) (X : list A) : res (list diagram) :=
  do f <- hom_fit homology_dimensions max_edge_length infinity_values;
  hom_transform junk (fun x => Tagged (gudhi max_edge_length (zmax_list (f_dims f) + 1) x)) f reduced X.

(** ** FlagserPersistence *)

(** simplicial.py lines 1611-1623 _flagser_diagram; [flagser min_dimension max_dimension] is the
    list of diagrams returned for the sample.  A list multiplied by a negative number is empty. *)
Definition list_times {A} (l : list A) (k : Z) : list A := concat (repeat l (Z.to_nat k)).
Definition flagser_diagram (lo hi : Z) (flagser : Z -> Z -> list (list (fl * fl)))
  : list (list (fl * fl)) :=
  let Xdgms := list_times [[]] lo in
  let Xdgms := Xdgms ++ flagser lo hi in
  let n_missing_dims := hi + 1 - zlen Xdgms in
  if negb (n_missing_dims =? 0) then Xdgms ++ list_times [[]] n_missing_dims else Xdgms.

(** lines 1664-1671, 1723-1730 *)
Definition flagser_fit_transform {A} (junk : pt) (flagser : A -> Z -> Z -> list (list (fl * fl)))
  (homology_dimensions : list Z) (max_edge_weight : fl) (infinity_values : option fl)
  (reduced : bool) (X : list A) : res (list diagram) :=
  do f <- hom_fit homology_dimensions max_edge_weight infinity_values;
  hom_transform junk (fun x => ByDimension (flagser_diagram (f_min f) (f_max f) (flagser x))) f reduced X.

(** ** WeakAlphaPersistence *)

(** [row[idx] = v] with an array of indices *)
Fixpoint fancy_set (row : list Z) (idx : list Z) (v : Z) : res (list Z) :=
  match idx with
  | [] => Ok row
  | i :: t =>
      let j := if i <? 0 then i + zlen row else i in
      if (0 <=? j) && (j <? zlen row) then fancy_set (set_at row j v) t v else Err IndexError
  end.

(** simplicial.py lines 1108-1124: the entries (row, column, distance) of the sparse matrix built
    from Delaunay(X).vertex_neighbor_vertices; [dist i j] is the norm of X[i] - X[j].  All
    indices are assigned before any is checked in numpy; the exception is the same. *)
Definition weak_alpha_entries {W} (dist : Z -> Z -> W) (indptr indices : list Z)
  : res (list (Z * Z * W)) :=
  let row := map (fun _ => 0) indices in
  do row <- fancy_set row (py_sub (Some 1) (Some (-1)) indptr) 1;
  let row := cumsum row in
  let kept := filter (fun rc => fst rc <? snd rc) (combine row indices) in
  Ok (map (fun rc => (fst rc, snd rc, dist (fst rc) (snd rc))) kept).

(** ** CubicalPersistence *)

(** The input: an array of shape (n_samples, ...) or a list of arrays. *)
Inductive images := ArrayOf (a : nd fl) | ListOf (l : list (nd fl)).
Definition n_images (X : images) : Z :=
  match X with ArrayOf a => match nshape a with n :: _ => n | [] => 0 end | ListOf l => zlen l end.

(** Python's max of a non-empty iterable *)
Definition py_max (l : list fl) : res fl :=
  match l with
  | [] => Err ValueError
  | x :: t => Ok (fold_left (fun m y => if flt m y then y else m) t x)
  end.

(** np.zeros(n, dtype=bool), ValueError for a negative size *)
Definition np_zeros_bool (n : Z) : res (list bool) :=
  if n <? 0 then Err ValueError else Ok (repeat false (Z.to_nat n)).

(** cubical.py lines 153-179 (fit after validation): periodic_dimensions_, whether the periodic
    complex is used, infinity_values_, and the sorted dimensions. *)
Record cubical := Cubical { c_periodic_dimensions : list bool; c_is_periodic : bool; c_fit : fitted }.
Definition cubical_fit (homology_dimensions : list Z) (periodic_dimensions : option (list bool))
  (infinity_values : option fl) (X : images) : res cubical :=
  do p <- match periodic_dimensions with
          | Some l => if zlen (filter (fun b => b) l) =? 0
                      then do z <- np_zeros_bool (n_images X - 1); Ok (z, false)
                      else Ok (l, true)
          | None => do z <- np_zeros_bool (n_images X - 1); Ok (z, false)
          end;
  do inf <- match infinity_values with
            | None => match X with
                      | ArrayOf a => np_max (ndata a)
                      | ListOf l => do ms <- mapM (fun a => np_max (ndata a)) l; py_max ms
                      end
            | Some v => Ok v
            end;
  do f <- hom_fit homology_dimensions inf None;
  Ok (Cubical (fst p) (snd p) f).

(** X.flatten(order="F") (external numpy): the entries with the first index moving fastest *)
Definition flatten_F {A} (a : nd A) : list (option A) :=
  map (fun idx => nget a (rev idx)) (indices (rev (nshape a))).

(** cubical.py lines 121-131 _gudhi_diagram: the arguments handed to GUDHI, dimensions,
    top_dimensional_cells and, for the periodic complex, periodic_dimensions. *)
Definition cubical_arguments (c : cubical) (x : nd fl)
  : list Z * list (option fl) * option (list bool) :=
  (nshape x, flatten_F x, if c_is_periodic c then Some (c_periodic_dimensions c) else None).

(** cubical.py lines 121-131, 207-218 *)
Definition cubical_transform (junk : pt)
  (gudhi : list Z * list (option fl) * option (list bool) -> list (Z * (fl * fl)))
  (c : cubical) (reduced : bool) (X : list (nd fl)) : res (list diagram) :=
  hom_transform junk (fun x => Tagged (gudhi (cubical_arguments c x))) (c_fit c) reduced X.
