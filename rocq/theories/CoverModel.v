(** Model of gtda/mapper/cover.py and gtda/mapper/utils/_cover.py.

    Filter values are exact rationals ([Qc]: float64 without rounding; NaN and
    infinite values are rejected by check_array), interval limits are [fl]
    (they may be infinite).  A boolean mask array of shape
    (n_samples, n_sets) is represented by the list of its columns.  Type
    checks of hyperparameters, warnings and messages of exceptions are not
    modelled. *)
From Verif Require Import Np Fl DiagModel VecModel.
Open Scope Z_scope.

(** Hyperparameters of both covers: cover.py lines 87-96 and 379-388. *)
Inductive cover_kind := Uniform | Balanced.
Record cover_params := CParams {
  kind : cover_kind;
  n_intervals : Z;
  overlap_frac : Qc }.

(** validate_params with the _hyperparameters of lines 87-91 and 379-383. *)
Definition validate_cover (p : cover_params) : res unit :=
  if (n_intervals p <? 1) || Qcleb (overlap_frac p) 0 || Qcleb 1 (overlap_frac p)
  then Err ValueError else Ok tt.

(** Inputs "ndarray of shape (n_samples,) or (n_samples, 1)": [D1] a
    one-dimensional array, [D2 c rows] a two-dimensional array with c columns. *)
Inductive ndata := D1 (l : list Qc) | D2 (ncols : Z) (rows : list (list Qc)).

(** check_array(X, ensure_2d=False): no samples, or no features in the
    two-dimensional case, is a ValueError. *)
Definition check_array_ (X : ndata) : res ndata :=
  match X with
  | D1 [] | D2 _ [] => Err ValueError
  | D2 c _ => if c <? 1 then Err ValueError else Ok X
  | _ => Ok X
  end.

(** _cover.py lines 4-6 _check_has_one_column when X.ndim == 2; the result is
    the column (X[:, None] of line 169/240 and X.flatten() of line 114 are the
    same list of values). *)
Definition one_column (X : ndata) : res (list Qc) :=
  match X with
  | D1 l => Ok l
  | D2 c rows => if 1 <? c then Err ValueError else Ok (concat rows)
  end.

(** np.min, np.max of a non-empty list. *)
Fixpoint qmin_list (x : Qc) (l : list Qc) : Qc :=
  match l with [] => x | y :: t => qmin_list (if Qcleb x y then x else y) t end.
Fixpoint qmax_list (x : Qc) (l : list Qc) : Qc :=
  match l with [] => x | y :: t => qmax_list (if Qcleb x y then y else x) t end.
Definition np_min (l : list Qc) : Qc :=
  match l with [] => 0%Qc | x :: t => qmin_list x t end.
Definition np_max (l : list Qc) : Qc :=
  match l with [] => 0%Qc | x :: t => qmax_list x t end.

(** cover.py lines 323-337 _cover_limits *)
Definition cover_limits (min_val max_val : Qc) (n : Z) (ov : Qc)
  : list Qc * list Qc :=
  let total_len := (max_val - min_val)%Qc in
  let interval_len := (total_len / (qz n - qz (n - 1) * ov))%Qc in
  let last := (min_val + qz (n - 1) * (1 - ov) * interval_len)%Qc in
  let left_limits := fst (linspace min_val last n) in
  let right_limits := map (fun l => l + interval_len)%Qc left_limits in
  (left_limits, right_limits).

(** cover.py lines 277-298 _find_interval_limits *)
Definition qhalf : Qc := Q2Qc (1 # 2).
Definition find_interval_limits (X : list Qc) (n : Z) (ov : Qc)
  (is_uniform : bool) : res (list fl * list fl) :=
  let '(min_val, max_val) :=
    if is_uniform then (np_min X, np_max X)
    else (- qhalf, np_max X + qhalf)%Qc in
  let only_one_pt :=
    if is_uniform then Qceqb min_val max_val
    else Qceqb min_val (max_val - 1)%Qc in
  if only_one_pt && (1 <? n) then Err ValueError
  else
    let '(lefts, rights) := cover_limits min_val max_val n ov in
    let lefts := map Fin lefts in
    let rights := map Fin rights in
    if is_uniform
    then Ok (set_at lefts 0 NInf, set_at rights (zlen rights - 1) PInf)
    else Ok (lefts, rights).

(** scipy.stats.rankdata(X, method='dense') - 1: the number of distinct values
    of X strictly below the entry. *)
Definition dense_rank (X : list Qc) (x : Qc) : Z :=
  zlen (nodup Qc_eq_dec (filter (fun y => Qcltb y x) X)).
Definition rankdata (X : list Qc) : list Z := map (dense_rank X) X.

(** numpy's astype(int): truncation towards zero. *)
Definition qtrunc (q : Qc) : Z := Z.quot (Qnum q) (Zpos (Qden q)).

(** [X[nonzero_indices[0]] if nonzero_indices.size else default] where
    nonzero_indices are the positions of [r] in the ranks. *)
Fixpoint value_of_rank (ranks : list Z) (X : list Qc) (r : Z) (default : fl)
  : fl :=
  match ranks, X with
  | k :: ks, x :: xs =>
      if k =? r then Fin x else value_of_rank ks xs r default
  | _, _ => default
  end.

(** cover.py lines 300-320 _limits_from_ranks *)
Definition limits_from_ranks (X_rank : list Z) (X : list Qc)
  (left_ranks right_ranks : list Z) : list fl * list fl :=
  let lefts := map (fun r => value_of_rank X_rank X r NInf) left_ranks in
  let rights := map (fun r => value_of_rank X_rank X r PInf) right_ranks in
  (set_at lefts 0 NInf, set_at rights (zlen rights - 1) PInf).

(** cover.py lines 98-101 _fit_uniform *)
Definition fit_uniform (p : cover_params) (X : list Qc)
  : res (list fl * list fl) :=
  find_interval_limits X (n_intervals p) (overlap_frac p) true.

(** cover.py lines 103-115 _fit_balanced *)
Definition fl_val (x : fl) : Qc := match x with Fin q => q | _ => 0%Qc end.
Definition fit_balanced (p : cover_params) (X : list Qc)
  : res (list fl * list fl) :=
  let X_rank := rankdata X in
  do (lefts, rights) <-
    find_interval_limits (map qz X_rank) (n_intervals p) (overlap_frac p) false;
  let lefts := map fl_val lefts in
  let rights := map fl_val rights in
  let left_ranks := map (fun l => if Qcleb 0 l then qtrunc l else -1) lefts in
  let right_ranks :=
    map (fun r => if Qceqb (qz (qtrunc r)) r then qtrunc r else qtrunc r + 1)
        rights in
  Ok (limits_from_ranks X_rank X left_ranks right_ranks).

(** The estimator's fitted state: left_limits_ and right_limits_ (absent
    before fit).  _left_limits and _right_limits are never read. *)
Definition cover_state := option (list fl * list fl).

(** cover.py lines 117-151 fit *)
Definition cover_fit (p : cover_params) (X : ndata) : res cover_state :=
  do X <- check_array_ X;
  do _ <- validate_cover p;
  do X <- one_column X;
  do lims <- (match kind p with Uniform => fit_uniform | Balanced => fit_balanced end) p X;
  Ok (Some lims).

(** cover.py line 154 _transform: one column per interval. *)
Definition cover_masks (lims : list fl * list fl) (X : list Qc)
  : list (list bool) :=
  map (fun lr => map (fun x => flt (fst lr) (Fin x) && flt (Fin x) (snd lr)) X)
      (combine (fst lims) (snd lims)).

(** np.unique(X_masks, axis=1, return_index=True): the distinct columns in
    lexicographic order, each with the position of its first occurrence. *)
Fixpoint col_eqb (a b : list bool) : bool :=
  match a, b with
  | [], [] => true
  | x :: a, y :: b => Bool.eqb x y && col_eqb a b
  | _, _ => false
  end.
Fixpoint col_leb (a b : list bool) : bool :=
  match a, b with
  | [], _ => true
  | _ :: _, [] => false
  | x :: a, y :: b => if Bool.eqb x y then col_leb a b else y
  end.
Section Isort.
  Context {A : Type} (leb : A -> A -> bool).
  Fixpoint insert_by (x : A) (l : list A) : list A :=
    match l with
    | [] => [x]
    | y :: t => if leb x y then x :: l else y :: insert_by x t
    end.
  Definition sort_by (l : list A) : list A := fold_right insert_by [] l.
End Isort.
Fixpoint firsts_from (seen : list (list bool)) (i : Z) (cols : list (list bool))
  : list (list bool * Z) :=
  match cols with
  | [] => []
  | c :: t =>
      if existsb (col_eqb c) seen then firsts_from seen (i + 1) t
      else (c, i) :: firsts_from (c :: seen) (i + 1) t
  end.
Definition np_unique_columns (cols : list (list bool))
  : list (list bool * Z) :=
  sort_by (fun a b => col_leb (fst a) (fst b)) (firsts_from [] 0 cols).

(** _cover.py lines 9-16 _remove_empty_and_duplicate_intervals; the columns are
    re-ordered by np.argsort(indices). *)
Definition remove_empty_and_duplicate_intervals (X_masks : list (list bool))
  : list (list bool) :=
  let X_masks := filter (existsb (fun b => b)) X_masks in
  let uniq := np_unique_columns X_masks in
  map fst (sort_by (fun a b => snd a <=? snd b) uniq).

(** cover.py lines 173-195 transform (the check of line 185 is subsumed by
    check_is_fitted: both look at left_limits_). *)
Definition cover_transform (p : cover_params) (st : cover_state) (X : ndata)
  : res (list (list bool)) :=
  match st with
  | None => Err NotFittedError
  | Some lims =>
      do X <- check_array_ X;
      do X <- one_column X;
      Ok (remove_empty_and_duplicate_intervals (cover_masks lims X))
  end.

(** cover.py lines 197-213 _fit_transform_balanced *)
Definition fit_transform_balanced (p : cover_params) (X : list Qc)
  : res (list (list bool)) :=
  let X_rank := map qz (rankdata X) in
  do lims <- find_interval_limits X_rank (n_intervals p) (overlap_frac p) false;
  Ok (cover_masks lims X_rank).

(** cover.py lines 215-250 _fit_transform and fit_transform: new state (only
    set in the uniform case) and masks. *)
Definition cover_fit_transform (p : cover_params) (st : cover_state) (X : ndata)
  : res (cover_state * list (list bool)) :=
  do X <- check_array_ X;
  do _ <- validate_cover p;
  do X <- one_column X;
  match kind p with
  | Uniform =>
      do lims <- fit_uniform p X;
      Ok (Some lims, remove_empty_and_duplicate_intervals (cover_masks lims X))
  | Balanced =>
      do masks <- fit_transform_balanced p X;
      Ok (st, remove_empty_and_duplicate_intervals masks)
  end.

(** cover.py lines 252-264 get_fitted_intervals *)
Definition get_fitted_intervals (st : cover_state) : res (list (fl * fl)) :=
  match st with
  | None => Err NotFittedError
  | Some (l, r) => Ok (combine l r)
  end.

(** ** CubicalCover *)
(** X[:, [i]] *)
Definition column (rows : list (list Qc)) (i : Z) : list Qc :=
  map (fun r => match Znth r i with Some x => x | None => 0%Qc end) rows.

(** _coverers and _n_features_fit *)
Definition cubical_state := option (list cover_state * Z).

(** "if X.ndim == 1: X = X[:, None]" *)
Definition as_rows (X : ndata) : Z * list (list Qc) :=
  match X with D1 l => (1, map (fun x => [x]) l) | D2 c rows => (c, rows) end.

(** cover.py lines 390-415 _clone_and_apply_to_column and _fit *)
Definition cubical_fit_ (p : cover_params) (c : Z) (X : list (list Qc))
  : res (list cover_state * Z) :=
  do coverers <- mapM (fun i =>
      do lims <- (match kind p with Uniform => fit_uniform | Balanced => fit_balanced end)
                   p (column X i);
      Ok (Some lims)) (arange c);
  Ok (coverers, c).

(** cover.py lines 417-446 fit *)
Definition cubical_fit (p : cover_params) (X : ndata) : res cubical_state :=
  do X <- check_array_ X;
  do _ <- validate_cover p;
  let '(c, rows) := as_rows X in
  do st <- cubical_fit_ p c rows;
  Ok (Some st).

(** itertools.product and np.logical_and.reduce *)
Fixpoint product {A} (ls : list (list A)) : list (list A) :=
  match ls with
  | [] => [[]]
  | l :: t => flat_map (fun x => map (cons x) (product t)) l
  end.
Fixpoint zip_and (a b : list bool) : list bool :=
  match a, b with
  | x :: a, y :: b => (x && y) :: zip_and a b
  | _, _ => []
  end.
Definition and_reduce (n : Z) (cols : list (list bool)) : list bool :=
  fold_right zip_and (repeat true (Z.to_nat n)) cols.

(** cover.py lines 549-561 _combine_one_dim_covers, for [n] samples *)
Definition combine_one_dim_covers (n : Z) (covers : list (list (list bool)))
  : list (list bool) :=
  remove_empty_and_duplicate_intervals (map (and_reduce n) (product covers)).

(** cover.py lines 448-454 _transform.  A coverer without limits raises
    AttributeError. *)
Definition cubical_transform_ (coverers : list cover_state)
  (X : list (list Qc)) : res (list (list bool)) :=
  do covers <- mapM (fun ic =>
      match snd ic with
      | Some lims => Ok (cover_masks lims (column X (fst ic)))
      | None => Err AttributeError
      end) (mapi (fun i st => (i, st)) coverers);
  Ok (combine_one_dim_covers (zlen X) covers).

(** cover.py lines 456-499 transform *)
Definition cubical_transform (p : cover_params) (st : cubical_state) (X : ndata)
  : res (list (list bool)) :=
  match st with
  | None => Err NotFittedError
  | Some (coverers, nfeat) =>
      do X <- check_array_ X;
      let '(c, rows) := as_rows X in
      if negb (c =? nfeat) then Err DataDimensionalityWarning
      else
        do _ <- (match kind p, coverers with
                 | Balanced, None :: _ => Err NotFittedError
                 | _, _ => Ok tt
                 end);
        cubical_transform_ coverers rows
  end.

(** cover.py lines 501-547 fit_transform *)
Definition cubical_fit_transform (p : cover_params) (X : ndata)
  : res (cubical_state * list (list bool)) :=
  do X <- check_array_ X;
  do _ <- validate_cover p;
  let '(c, rows) := as_rows X in
  match kind p with
  | Uniform =>
      do st <- cubical_fit_ p c rows;
      do Xt <- cubical_transform_ (fst st) rows;
      Ok (Some st, Xt)
  | Balanced =>
      let coverers := map (fun _ => None) (arange c) in
      do covers <- mapM (fun i => fit_transform_balanced p (column rows i)) (arange c);
      Ok (Some (coverers, c), combine_one_dim_covers (zlen rows) covers)
  end.
