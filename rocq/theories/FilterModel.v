(** Model of gtda/mapper/filter.py (Eccentricity, Entropy, Projection), of
    gtda/mapper/utils/pipeline.py (transformer_from_callable_on_rows, identity) and of
    gtda/mapper/utils/decorators.py (method_to_transform). *)
From Coq Require Import Reals.
From Verif Require Import Np Fl RNp FeatModel.
From Verif Require CoverModel.
Open Scope Z_scope.

(** sklearn (external) check_array(X) for a two-dimensional array of floats: at least one row and one
    column, no NaN and no infinity. *)
Definition xfin (v : xr) : res R := match v with XFin r => Ok r | _ => Err ValueError end.
Definition check_array (X : list (list xr)) : res (list (list R)) :=
  match X with
  | [] | [] :: _ => Err ValueError
  | _ => mapM (mapM xfin) X
  end.

(** ** Eccentricity *)
(** The order of a norm: a number, np.inf or -np.inf *)
Inductive order := Ofin (p : R) | OPinf | ONinf.
(** numpy (external): np.linalg.norm(v, ord) of a row.  Order 0 counts; a negative power of 0 is inf,
    and inf to the power 1 / ord is then 0.  ValueError for the maximum or minimum of an empty row. *)
Definition is0 (x : R) : bool := if Req_EM_T x 0 then true else false.
Definition rmin (x : R) (l : list R) : R := fold_left Rmin l x.
Definition row_norm (o : order) (v : list R) : res R :=
  match o with
  | OPinf => match map Rabs v with [] => Err ValueError | l => Ok (rmax l) end
  | ONinf => match map Rabs v with [] => Err ValueError | x :: l => Ok (rmin x l) end
  | Ofin p =>
      if Req_EM_T p 0 then Ok (rsum (map (fun x => if is0 x then 0%R else 1%R) v))
      else if (if Rlt_dec p 0 then true else false) && existsb is0 v then Ok 0%R
      else Ok (norm (Pfin p) v)
  end.
(** scipy (external): squareform(pdist(X, metric)); the metric is called on (X[i], X[j]) with i < j.
    Distances are taken to be finite. *)
Definition squareform_pdist (dist : list R -> list R -> R) (X : list (list R)) : list (list R) :=
  mapi (fun i p => mapi (fun j q =>
    if i =? j then 0%R else if i <? j then dist p q else dist q p) X) X.
(** filter.py lines 71-74 (fit) and 95-104 (transform); [metric = None] is 'precomputed' *)
Definition eccentricity (exponent : order) (metric : option (list R -> list R -> R))
  (X : list (list xr)) : res (list (list R)) :=
  do _ <- check_array X;
  do Xt <- check_array X;
  let Xt := match metric with Some dist => squareform_pdist dist Xt | None => Xt end in
  mapM (fun row => do r <- row_norm exponent row; Ok [r]) Xt.

(** ** Entropy *)
(** filter.py lines 140-143 and 167-176; np.abs is applied to the whole array if an entry is
    negative *)
Definition entropy_filter (X : list (list xr)) : res (list (list xr)) :=
  do _ <- check_array X;
  do Xt <- check_array X;
  let Xt := if existsb (existsb (fun x => if Rlt_dec x 0 then true else false)) Xt
            then map (map Rabs) Xt else Xt in
  Ok (map (fun row => [entropy2 row]) Xt).

(** ** Projection *)
(** The parameter columns: an integer (or label) or a list *)
Inductive columns := OneCol (c : Z) | ManyCols (l : list Z).
Definition column_list (c : columns) : list Z := match c with OneCol c => [c] | ManyCols l => l end.
(** filter.py lines 216-219 and 239-248 for an array: Xt[:, columns], then reshape(len(Xt), -1).
    A list selects several columns, an integer gives one value per row. *)
Definition projection (cols : columns) (X : list (list xr)) : res (list (list R)) :=
  do _ <- check_array X;
  do Xt <- check_array X;
  match cols with
  | OneCol c => mapM (fun row => do v <- py_get row c; Ok [v]) Xt
  | ManyCols l => mapM (fun row => mapM (py_get row) l) Xt
  end.
(** A pandas DataFrame: the labels of the columns, and the rows; a cell is a number or not *)
Inductive cell := Number (v : xr) | Text.
Record frame := Frame { labels : list Z; cells : list (list cell) }.
Definition cell_value (c : cell) : res R := match c with Number v => xfin v | Text => Err ValueError end.
(** check_array of a DataFrame with [k] columns (lines 216 and 243); a Series has one *)
Definition check_frame (k : Z) (rows : list (list cell)) : res (list (list R)) :=
  match rows with
  | [] => Err ValueError
  | _ => if k =? 0 then Err ValueError else mapM (mapM cell_value) rows
  end.
(** X[columns] (external pandas): the positions of the columns carrying the labels, KeyError if a
    label does not occur; a label occurring several times selects all its columns *)
Definition positions (f : frame) (c : Z) : res (list Z) :=
  match filter (fun p => match Znth (labels f) p with Some c' => c' =? c | None => false end)
               (arange (zlen (labels f))) with
  | [] => Err KeyError
  | l => Ok l
  end.
Definition select (f : frame) (cols : columns) : res (Z * list (list cell)) :=
  do ps <- mapM (positions f) (column_list cols);
  do rows <- mapM (fun row => mapM (py_get row) (concat ps)) (cells f);
  Ok (zlen (concat ps), rows).
(** lines 240-248: transform *)
Definition projection_frame_transform (cols : columns) (f : frame) : res (list (list R)) :=
  do s <- select f cols;
  check_frame (fst s) (snd s).
(** lines 216-219: fit checks all columns *)
Definition projection_frame_fit (f : frame) : res unit :=
  do _ <- check_frame (zlen (labels f)) (cells f); Ok tt.
Definition projection_frame (cols : columns) (f : frame) : res (list (list R)) :=
  do _ <- projection_frame_fit f; projection_frame_transform cols f.

(** ** Callables on rows *)
(** What a callable returns for a row, after np.asanyarray: a scalar or a vector of one of the
    types bool, int, float.  Arrays with more axes are left out. *)
Inductive dtype := DBool | DInt | DFloat.
Inductive num := NBool (b : bool) | NInt (z : Z) | NFloat (q : Qc).
Inductive result := Scalar (x : num) | Vector (d : dtype) (l : list num).
Definition dtype_of (x : num) : dtype :=
  match x with NBool _ => DBool | NInt _ => DInt | NFloat _ => DFloat end.
Definition result_dtype (r : result) : dtype := match r with Scalar x => dtype_of x | Vector d _ => d end.
(** numpy (external): conversion to the type of the array assigned to *)
Definition cast (d : dtype) (x : num) : num :=
  match d, x with
  | DBool, NBool b => NBool b
  | DBool, NInt z => NBool (negb (z =? 0))
  | DBool, NFloat q => NBool (negb (Qceqb q 0))
  | DInt, NBool b => NInt (if b then 1 else 0)
  | DInt, NInt z => NInt z
  | DInt, NFloat q => NInt (CoverModel.qtrunc q)
  | DFloat, NBool b => NFloat (if b then 1 else 0)
  | DFloat, NInt z => NFloat (qz z)
  | DFloat, NFloat q => NFloat q
  end.
(** [buff[i] = r], the rows of buff having the shape and type of the first result [r0]; broadcasting
    from one element *)
Definition assign (r0 r : result) : res (list num) :=
  let d := result_dtype r0 in
  match r0, r with
  | Scalar _, Scalar x => Ok [cast d x]
  | Scalar _, Vector _ [x] => Ok [cast d x]
  | Scalar _, Vector _ _ => Err ValueError
  | Vector _ l0, Scalar x => Ok (map (fun _ => cast d x) l0)
  | Vector _ l0, Vector _ l =>
      if zlen l =? zlen l0 then Ok (map (cast d) l)
      else match l with [x] => Ok (map (fun _ => cast d x) l0) | _ => Err ValueError end
  end.
(** numpy (external): np.apply_along_axis(func, 1, X), as the list of its rows; with
    pipeline.py lines 11-19 a one-dimensional result becomes a column *)
Definition apply_along_axis_1 {A} (func : list A -> res result) (X : list (list A))
  : res (list (list num)) :=
  match X with
  | [] => Err ValueError
  | x0 :: _ =>
      do r0 <- func x0;
      mapM (fun x => do r <- func x; assign r0 r) X
  end.
(** A callable: whether its signature has a parameter named axis, whether it accepts keepdims, its
    value on a row, and what func(X, axis=1, keepdims=True) returns. *)
Record callable (A : Type) := Callable
  { has_axis : bool; has_keepdims : bool; on_row : list A -> res result;
    on_axis_1 : list (list A) -> res (list (list num)) }.
Arguments Callable {A}. Arguments has_axis {A}. Arguments has_keepdims {A}.
Arguments on_row {A}. Arguments on_axis_1 {A}.
(** pipeline.py lines 54-65 and sklearn's FunctionTransformer; [check] is the input validation, done
    if validate is true.  Without a callable the input is returned. *)
Inductive output (A : Type) := Same (X : list (list A)) | New (Y : list (list num)).
Arguments Same {A}. Arguments New {A}.
Definition transformer_from_callable {A} (check : list (list A) -> res (list (list A)))
  (func : option (callable A)) (validate : bool) (X : list (list A)) : res (output A) :=
  do X <- (if validate then check X else Ok X);
  match func with
  | None => Ok (Same X)
  | Some f =>
      if has_axis f then
        if has_keepdims f then do Y <- on_axis_1 f X; Ok (New Y) else Err TypeError
      else do Y <- apply_along_axis_1 (on_row f) X; Ok (New Y)
  end.
(** lines 68-69 identity *)
Definition identity {A} (check : list (list A) -> res (list (list A))) (validate : bool)
  (X : list (list A)) : res (output A) := transformer_from_callable check None validate X.

(** ** method_to_transform *)
(** Arrays with one axis or with several (of any entries) *)
Inductive arr (V W : Type) := Arr1 (l : list V) | Arr2 (l : list (list V)) | ArrN (w : W).
Arguments Arr1 {V W}. Arguments Arr2 {V W}. Arguments ArrN {V W}.
(** The class to be wrapped: fit, the method of the given name (which may be missing), and a
    fit_transform of its own, if it has one. *)
Record estimator (P X V W : Type) := Estimator
  { e_fit : P -> X -> res P; e_method : option (P -> X -> res (arr V W));
    e_fit_transform : option (P -> X -> res (arr V W)) }.
Arguments Estimator {P X V W}. Arguments e_fit {P X V W}. Arguments e_method {P X V W}.
Arguments e_fit_transform {P X V W}.
(** decorators.py lines 60-68: transform of the extended class; it returns None ([Ok None]) if
    there is no such method *)
Definition extended_transform {P X V W} (e : estimator P X V W) (p : P) (x : X)
  : res (option (arr V W)) :=
  match e_method e with
  | None => Ok None
  | Some m =>
      do Xt <- m p x;
      Ok (Some (match Xt with Arr1 l => Arr2 (map (fun v => [v]) l) | _ => Xt end))
  end.
(** fit_transform of ExtendedEstimator(cls, TransformerMixin): that of cls if it has one, else
    TransformerMixin's, fit(X).transform(X) *)
Definition extended_fit_transform {P X V W} (e : estimator P X V W) (p : P) (x : X)
  : res (option (arr V W)) :=
  match e_fit_transform e with
  | Some ft => do r <- ft p x; Ok (Some r)
  | None => do p' <- e_fit e p x; extended_transform e p' x
  end.
