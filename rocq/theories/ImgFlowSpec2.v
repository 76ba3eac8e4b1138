(** Specification for C95: what an image pipeline computes. *)
From Coq Require Import Reals.
From Verif Require Import Np Fl Nd DiagTypes DiagModel DiagSpec RNp FeatModel FlowModel FlowSpec ImgSpec ImgFlowModel ImgFlowSpec.
Open Scope Z_scope.

(** The value of a filtration at a pixel of the image [x], with at most [k] steps and value [m]
    where there is none to measure the distance to. *)
Definition is_filtered (f : image_filtration) (k m : Z) (x : nd Z) (p : list Z) (v : Z) : Prop :=
  match f with
  | DilationF => is_dilation k m x p v
  | ErosionF => is_erosion k m x p v
  | SignedDistanceF => is_signed_distance k m x p v
  end.

(** What infinite deaths are replaced by: infinity_values, or else the largest value of the
    filtration over the images of fit. *)
Definition is_infinity_value (infinity_values : option fl) (f : image_filtration) (k m : Z) (X : list (nd Z)) (inf : fl) : Prop :=
  match infinity_values with
  | Some v => inf = v
  | None => exists n, inf = fz n /\
      (exists x p, In x X /\ inside (nshape x) p = true /\ is_filtered f k m x p n) /\
      forall x p v, In x X -> inside (nshape x) p = true -> is_filtered f k m x p v -> v <= n
  end.

(** The row of features of the image [y]: for each dimension, the feature of the non-trivial
    classes GUDHI gives for the filtration of the image. *)
Definition image_row (gudhi : list Z * list (option fl) * option (list bool) -> list (Z * (fl * fl)))
  (f : image_filtration) (k m : Z) (reduced : bool) (inf : fl) (e : scalar_feature) (sorted : list Z) (y : nd Z) (row : list xr) : Prop :=
  exists z cells, pixelwise (is_filtered f k m y) y z /\ wf z /\ column_major_cells (nmap fz z) cells /\
    Forall2 (fun dim v => feature_value e (pairs (nontrivial_rows reduced inf (Tagged (gudhi (nshape y, cells, None))) dim)) v) sorted row.
