(** Model of gtda/graphs/kneighbors.py (KNeighborsGraph), with sklearn's
    kneighbors_graph around an arbitrary search for nearest points. *)
From Coq Require Import String.
From Verif Require Import Np Fl DiagModel ValidModel GraphModel.
Open Scope Z_scope.

Section Knn.
(** The type of metric_params. *)
Context {M : Type}.
(** Distances as computed by the metric of some name (external), given p and
    metric_params. *)
Variable dist : string -> Z -> option M -> list fl -> list fl -> res fl.
(** The indices of the k smallest entries of a row, in the order sklearn gives them
    (external). *)
Variable nearest : list fl -> Z -> list Z.
(** kneighbors_graph on sparse inputs (external). *)
Variable sparse_graph : string -> Z -> option M -> string -> Z -> ValidModel.arr -> res adj.

(** kneighbors.py lines 84-91: the parameters, and _is_precomputed, which fit sets
    (line 117), as _is_fitted (line 121). *)
Record kng := Kng {
  n_neighbors : Z; mode : string; metric : string; p : Z; metric_params : option M;
  is_precomputed : option bool }.
Definition kng_init (n_neighbors : Z) (mode metric : string) (p : Z) (metric_params : option M) : kng :=
  Kng n_neighbors mode metric p metric_params None.

(** sklearn, NearestNeighbors.fit: the checks of the data, and the distances between
    the rows of [x], of shape (n, m). *)
Definition distance_matrix (metric : string) (p : Z) (metric_params : option M) (n m : Z) (data : list fl) : res (list (list fl)) :=
  if (n <? 1) || (m <? 1) then Err ValueError
  else if negb (forallb isfin data) then Err ValueError
  else
    do rows <- np_reshape n m data;
    if String.eqb metric "precomputed" then
      if negb (n =? m) then Err ValueError
      else if negb (forallb (fle f0) data) then Err ValueError
      else Ok rows
    else mapM (fun a => mapM (dist metric p metric_params a) rows) rows.
(** sklearn, KNeighborsMixin.kneighbors without query points: one more neighbour is
    searched, and the point itself removed; if it has not been found, the first
    neighbour is removed. *)
Definition drop_self (i : Z) (ind : list Z) : list Z :=
  if existsb (Z.eqb i) ind then filter (fun j => negb (j =? i)) ind else tl ind.
Definition kneighbors (D : list (list fl)) (k : Z) : res (list (list Z)) :=
  let k1 := k + 1 in
  if zlen D <? k1 then Err ValueError
  else Ok (mapi (fun i row => drop_self i (nearest row k1)) D).
(** sklearn, kneighbors_graph with include_self=False: a matrix with the entries of
    each row one after the other *)
Definition kneighbors_graph (metric : string) (p : Z) (metric_params : option M) (mode : string) (k : Z) (x : ValidModel.arr) : res adj :=
  match a_kind x, a_shape x with
  | ValidModel.Sparse, _ => sparse_graph metric p metric_params mode k x
  | _, [n; m] =>
      if k <=? 0 then Err ValueError else
      do D <- distance_matrix metric p metric_params n m (a_data x);
      if String.eqb mode "connectivity" then
        do ind <- kneighbors D k;
        Ok (Sparse n n (concat (mapi (fun i js => map (fun j => (i, j, Fin 1%Qc)) js) ind)))
      else if String.eqb mode "distance" then
        do ind <- kneighbors D k;
        do entries <- mapM (fun e => do row <- py_get D (fst e);
                                     mapM (fun j => do d <- py_get row j; Ok (fst e, j, d)) (snd e))
                           (mapi (fun i js => (i, js)) ind);
        Ok (Sparse n n (concat entries))
      else Err ValueError
  | _, _ => Err ValueError
  end.

(** The entries of a collection, as a for loop gives them: the two-dimensional arrays
    of a three-dimensional one. *)
Definition samples (X : checked) : res (list ValidModel.arr) :=
  match X with
  | OutArr x =>
      match a_shape x with
      | [a; n; m] => do blocks <- np_reshape a (n * m) (a_data x); Ok (map (MkArr (a_kind x) [n; m]) blocks)
      | _ => Err ValueError
      end
  | OutList l | OutStacked l => Ok l
  end.
(** kneighbors.py lines 93-122 *)
Definition kng_fit (e : kng) (X : collection) : res kng :=
  let pre := String.eqb (metric e) "precomputed" in
  do _ <- check_point_clouds X pre true None;
  Ok (Kng (n_neighbors e) (mode e) (metric e) (p e) (metric_params e) (Some pre)).
(** kneighbors.py lines 124-162; Parallel gives the results in order, or the exception
    of one of the samples (here: the first) *)
Definition kng_transform (e : kng) (X : collection) : res (list adj) :=
  match is_precomputed e with
  | None => Err NotFittedError
  | Some pre =>
      do c <- check_point_clouds X pre true None;
      do xs <- samples (fst c);
      mapM (kneighbors_graph (metric e) (p e) (metric_params e) (mode e) (n_neighbors e)) xs
  end.
(** fit_transform (sklearn's TransformerMixin) *)
Definition kng_fit_transform (e : kng) (X : collection) : res (list adj) :=
  do e <- kng_fit e X; kng_transform e X.
End Knn.
