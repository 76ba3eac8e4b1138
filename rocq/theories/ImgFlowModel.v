(** An image pipeline: DilationFiltration, ErosionFiltration or SignedDistanceFiltration, then
    CubicalPersistence (periodic_dimensions=None), then PersistenceEntropy or NumberOfPoints, all
    fitted on the images X and applied to the images Y.  The computations are those of ImgModel,
    HomModel and FeatModel. *)
From Coq Require Import Reals.
From Verif Require Import Np Fl Nd DiagTypes DiagModel HomModel RNp FeatModel FlowModel ImgModel.
Open Scope Z_scope.

Inductive image_filtration := DilationF | ErosionF | SignedDistanceF.
(** images/filtrations.py lines 530-611 (dilation), 724-805 (erosion), 919-1007 (signed distance) *)
Definition filtration (k : image_filtration) (n_iterations : option Z) (n_jobs : Z) (X Y : list (nd Z)) : res (list (nd Z)) :=
  match k with
  | DilationF => dilation_filtration n_iterations n_jobs X Y
  | ErosionF => erosion_filtration n_iterations n_jobs X Y
  | SignedDistanceF => signed_distance_filtration n_iterations n_jobs X Y
  end.
(** The output of a filtration, one array of floats: np.concatenate(Xt) *)
Definition stack (l : list (nd fl)) : nd fl :=
  Nd (zlen l :: match l with x :: _ => nshape x | [] => [] end) (concat (map ndata l)).
(** diagrams/features.py lines 107-186 and 441-511 *)
Definition feature (k : scalar_feature) (n_jobs : Z) (X Y : list diagram) : res (list (list xr)) :=
  match k with
  | Entropy normalize fill => persistence_entropy normalize fill n_jobs X Y
  | Count => do v <- number_of_points n_jobs X Y; Ok (map (map (fun n => XFin (IZR n))) v)
  end.
(** pipeline.py lines 98-176 and 373-378 with these three steps: fit on X, then transform Y *)
Definition image_pipeline (junk : pt)
  (gudhi : list Z * list (option fl) * option (list bool) -> list (Z * (fl * fl)))
  (k : image_filtration) (n_iterations : option Z) (dims : list Z) (infinity_values : option fl) (reduced : bool)
  (e : scalar_feature) (n_jobs : Z) (X Y : list (nd Z)) : res (list (list xr)) :=
  do FX <- filtration k n_iterations n_jobs X X;
  do c <- cubical_fit dims None infinity_values (ArrayOf (stack (map (nmap fz) FX)));
  do DX <- cubical_transform junk gudhi c reduced (map (nmap fz) FX);
  do FY <- filtration k n_iterations n_jobs X Y;
  do DY <- cubical_transform junk gudhi c reduced (map (nmap fz) FY);
  feature e n_jobs DX DY.
