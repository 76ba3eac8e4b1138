(** A time series pipeline: SlidingWindow, TakensEmbedding, VietorisRipsPersistence and a scalar
    feature (PersistenceEntropy or NumberOfPoints), as estimator objects for Pipeline (PipeModel).
    The computations are those of TSModel, HomModel and FeatModel; here are the objects with their
    parameters and what fit stores.  Data of another kind than expected is refused by the input
    checks (ValueError). *)
From Coq Require Import String Reals.
From Verif Require Import Np Fl DiagTypes DiagModel HomModel TSModel RNp FeatModel PipeModel.
Open Scope Z_scope.

Section Flow.
(** A: values of the series, B: labels; ripser is external. *)
Context {A B : Type}.
Variable junk : pt.
Variable ripser : Z -> fl -> list (list A) -> list (list (fl * fl)).

(** What is passed from step to step: a univariate series, an array of windows, of point clouds, of
    diagrams, of features. *)
Inductive data :=
| Series (x : list A) | Windows (x : list (list A)) | Clouds (x : list (list (list A)))
| Diagrams (x : list diagram) | Table (x : list (list xr)).

(** Objects: parameters and fitted state.   A fitted feature extractor is represented by the
    training collection, of which it keeps the dimensions. *)
Inductive scalar_feature := Entropy (normalize : bool) (nan_fill_value : option R) | Count.
Inductive est :=
| EWindow (size stride : Z) (is_fitted : bool)
| ETakens (time_delay dimension stride : Z) (ensure_last_value : bool) (is_fitted : bool)
| EVR (homology_dimensions : list Z) (max_edge_length : fl) (infinity_values : option fl) (reduced : bool)
      (state : option fitted)
| EFeature (kind : scalar_feature) (n_jobs : Z) (training : option (list diagram)).

(** embedding.py lines 200-223 and 643-674, simplicial.py lines 186-243, diagrams/features.py lines
    107-144 and 441-476 *)
Definition est_fit (o : est) (x : data) : res est :=
  match o, x with
  | EWindow size stride _, Series _ =>
      if (1 <=? size) && (1 <=? stride) then Ok (EWindow size stride true) else Err ValueError
  | ETakens t d s elv _, Windows _ =>
      if (1 <=? t) && (1 <=? d) && (1 <=? s) then Ok (ETakens t d s elv true) else Err ValueError
  | EVR dims t inf reduced _, Clouds _ =>
      do f <- hom_fit dims t inf; Ok (EVR dims t inf reduced (Some f))
  | EFeature k n_jobs _, Diagrams X => Ok (EFeature k n_jobs (Some X))
  | _, _ => Err ValueError
  end.
(** embedding.py lines 225-249 and 676-725, simplicial.py lines 245-310, diagrams/features.py lines
    146-186 and 478-511 *)
Definition est_transform (o : est) (x : data) : res data :=
  match o, x with
  | EWindow _ _ false, _ | ETakens _ _ _ _ false, _ | EVR _ _ _ _ None, _ | EFeature _ _ None, _ => Err NotFittedError
  | EWindow size stride true, Series x => do w <- sw_transform size stride x; Ok (Windows w)
  | ETakens t d s elv true, Windows x => do c <- takens_transform t d s elv x; Ok (Clouds c)
  | EVR _ t _ reduced (Some f), Clouds x =>
      do d <- hom_transform junk (fun x => ByDimension (ripser (f_max f) t x)) f reduced x; Ok (Diagrams d)
  | EFeature (Entropy nm fill) n_jobs (Some X), Diagrams Y =>
      do v <- persistence_entropy nm fill n_jobs X Y; Ok (Table v)
  | EFeature Count n_jobs (Some X), Diagrams Y =>
      do v <- number_of_points n_jobs X Y; Ok (Table (map (map (fun n => XFin (IZR n))) v))
  | _, _ => Err ValueError
  end.
(** SlidingWindow is the only one with resample: embedding.py lines 251-276, base.py lines 41-64 *)
Definition est_resample (o : est) (y : option (list B)) : res (option (list B)) :=
  match o, y with
  | EWindow _ _ false, _ => Err NotFittedError
  | EWindow size stride true, Some y => Ok (Some (sw_resample size stride y))
  | _, _ => Err ValueError
  end.
Definition est_transform_resample (o : est) (x : data) (y : option (list B)) : res (data * option (list B)) :=
  do x' <- est_transform o x; do y' <- est_resample o y; Ok (x', y').
Definition est_has (o : est) (a : attr) : bool :=
  match a with
  | Fit | FitTransform | Transform => true
  | FitTransformResample | TransformResample | Resample => match o with EWindow _ _ _ => true | _ => false end
  | _ => false
  end.
(** None of the fit methods takes keyword arguments. *)
Definition no_params {C} (p : list (string * unit)) (r : res C) : res C :=
  match p with [] => r | _ => Err TypeError end.
Definition est_clone (o : est) : est :=
  match o with
  | EWindow a b _ => EWindow a b false
  | ETakens a b c d _ => ETakens a b c d false
  | EVR a b c d _ => EVR a b c d None
  | EFeature k n _ => EFeature k n None
  end.
(** base.py lines 10-39 and 66-88, scikit-learn's TransformerMixin.fit_transform *)
Definition flow : methods est data (list B) unit unit := {|
  has := est_has;
  fit := fun o x _ p => no_params p (est_fit o x);
  fit_transform := fun o x _ p => do o' <- no_params p (est_fit o x); do x' <- est_transform o' x; Ok (o', x');
  transform := est_transform;
  fit_transform_resample := fun o x y p =>
    do o' <- no_params p (est_fit o x); do r <- est_transform_resample o' x y; Ok (o', r);
  transform_resample := est_transform_resample;
  resample := est_resample;
  inverse_transform1 := fun _ _ => Err AttributeError;
  inverse_transform2 := fun _ _ _ => Err AttributeError;
  fit_predict := fun _ _ _ _ => Err AttributeError;
  predict := fun _ _ => Err AttributeError;
  score := fun _ _ _ _ => Err AttributeError;
  clone := est_clone |}.
End Flow.
Arguments data A : clear implicits.
