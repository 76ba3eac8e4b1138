(** Model of gtda/local_homology/simplicial.py: KNeighborsLocalVietorisRips and
    RadiusLocalVietorisRips, with the attributes which fit changes.  Warnings are left out. *)
From Verif Require Import Np Fl DiagModel HomModel ValidModel.
Open Scope Z_scope.

Section Local.
(** Points; the metric (scipy's pdist, sklearn's neighbours). *)
Context {P : Type}.
Variable dist : P -> P -> fl.
(** The order in which list() lists a set of integers (external). *)
Variable set_order : list Z -> list Z.

(** scipy (external): squareform(pdist(points, metric)), the distance being called on (points[i],
    points[j]) with i < j only; the 1 x 1 zero matrix for one point *)
Definition squareform_pdist (pts : list P) : list (list fl) :=
  mapi (fun i p => mapi (fun j q =>
    if i =? j then fz 0 else if i <? j then dist p q else dist q p) pts) pts.

(** lines 125-151 (transform): the matrix for one point from the indices of its neighbours;
    [train] is relevant_neighbors_._fit_X *)
Definition coned_matrix (train : list P) (close_indices relevant_indices : list Z) : res (list (list fl)) :=
  let annulus_indices := set_order (filter (fun k => negb (existsb (Z.eqb k) close_indices)) (nodup Z.eq_dec relevant_indices)) in
  let reordered_relevant_indices := close_indices ++ annulus_indices in
  if zlen close_indices =? 0 then Ok [[fz 0]]
  else
    do relevant_points <- mapM (py_get train) reordered_relevant_indices;
    let local_mat := squareform_pdist relevant_points in
    let new_row := map (fun _ => PInf) close_indices ++ map (fun _ => fz 0) annulus_indices in
    let new_col := new_row ++ [fz 0] in
    let pre_cone := local_mat ++ [new_row] in
    Ok (map (fun rc => fst rc ++ [snd rc]) (combine pre_cone new_col)).

(** An array as check_point_clouds sees it. *)
Definition as_array (M : list (list fl)) : arr :=
  MkArr Dense [zlen M; match M with r :: _ => zlen r | [] => 0 end] (concat M).

(** lines 115-155 transform; [close] and [relevant] give the indices of the neighbours of a point
    in the training points.  VietorisRipsPersistence is built in lines 60-65, with max_edge_length
    infinite and reduced homology. *)
Definition local_transform (junk : pt) (ripser : Z -> fl -> list (list fl) -> list (list (fl * fl)))
  (homology_dimensions : list Z) (train : list P) (close relevant : P -> list Z) (X : list P) : res (list diagram) :=
  if zlen X =? 0 then Err ValueError else
  do coned_mats <- mapM (fun x => coned_matrix train (close x) (relevant x)) X;
  do _ <- check_point_clouds (CSeq (map as_array coned_mats)) true true None;
  vr_fit_transform junk ripser homology_dimensions PInf None true coned_mats.

(** ** KNeighborsLocalVietorisRips *)
(** sklearn (external): KNeighborsTransformer(n_neighbors=k, mode="connectivity").fit(train)
    .transform([x]), the indices stored in the row of x *)
Variable kneighbors : list P -> Z -> P -> list Z.

(** The attributes n_neighbors, neighborhood_params, and what the two fitted transformers hold. *)
Record kest := KEst { k_n_neighbors : Z * Z; k_params : Z * Z; k_trained : option (Z * Z * list P) }.
(** lines 265-272, 30-52 __init__ *)
Definition k_init (n_neighbors : Z * Z) : kest := KEst n_neighbors n_neighbors None.
(** sklearn's set_params(n_neighbors=...): sets the attribute of that name *)
Definition k_set_params (e : kest) (n_neighbors : Z * Z) : kest := KEst n_neighbors (k_params e) (k_trained e).
(** sklearn's clone: the constructor on get_params() *)
Definition k_clone (e : kest) : kest := k_init (k_n_neighbors e).
(** lines 67-75 (fit of the base class): self.radii does not exist in this class *)
Definition k_base_fit (np : Z * Z) : res (Z * Z) :=
  let np := if snd np <? fst np then (snd np, fst np) else np in
  if snd np =? 0 then Err AttributeError else Ok np.
(** lines 274-330 fit.  validate_params reads n_neighbors (their type is not checked: the key in
    lines 255 is the builtin type); KNeighborsTransformer.fit wants a positive number. *)
Definition k_fit (e : kest) (X : list P) : res kest :=
  do np <- k_base_fit (k_params e);
  if negb ((1 <=? fst (k_n_neighbors e)) && (1 <=? snd (k_n_neighbors e))) then Err ValueError else
  if zlen X =? 0 then Err ValueError else
  let size := zlen X in
  let np := if size <=? fst np then (size - 1, size) else np in
  let np := if size <? snd np then (fst np, size) else np in
  if (fst np <=? 0) || (snd np <=? 0) then Err ValueError else
  Ok (KEst (k_n_neighbors e) np (Some (np, X))).
Definition k_transform junk ripser homology_dimensions (e : kest) (X : list P) : res (list diagram) :=
  match k_trained e with
  | None => Err NotFittedError
  | Some (a, b, train) => local_transform junk ripser homology_dimensions train (kneighbors train a) (kneighbors train b) X
  end.

(** ** RadiusLocalVietorisRips *)
(** sklearn (external): the same for RadiusNeighborsTransformer(radius=r) *)
Variable radius_neighbors : list P -> Qc -> P -> list Z.

Record rest := REst { r_radii : Qc * Qc; r_params : Qc * Qc; r_trained : option (Qc * Qc * list P) }.
(** lines 402-409, 30-52 __init__ *)
Definition r_init (radii : Qc * Qc) : rest := REst radii radii None.
Definition r_set_params (e : rest) (radii : Qc * Qc) : rest := REst radii (r_params e) (r_trained e).
Definition r_clone (e : rest) : rest := r_init (r_radii e).
(** lines 67-75 *)
Definition r_base_fit (radii np : Qc * Qc) : (Qc * Qc) * (Qc * Qc) :=
  let np := if Qcltb (snd np) (fst np) then (snd np, fst np) else np in
  let radii := if Qceqb (snd np) (qz 0) then (fst radii, qz 1) else radii in
  (radii, np).
(** lines 411-455 fit *)
Definition r_fit (e : rest) (X : list P) : res rest :=
  let (radii, np) := r_base_fit (r_radii e) (r_params e) in
  if negb (Qcleb (qz 0) (fst radii) && Qcleb (qz 0) (snd radii)) then Err ValueError else
  if zlen X =? 0 then Err ValueError else
  Ok (REst radii np (Some (np, X))).
Definition r_transform junk ripser homology_dimensions (e : rest) (X : list P) : res (list diagram) :=
  match r_trained e with
  | None => Err NotFittedError
  | Some (a, b, train) => local_transform junk ripser homology_dimensions train (radius_neighbors train a) (radius_neighbors train b) X
  end.
End Local.
Arguments kest P : clear implicits.
Arguments rest P : clear implicits.
