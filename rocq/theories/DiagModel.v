(** Model of the persistence-diagram plumbing:
    gtda/diagrams/_utils.py, gtda/diagrams/preprocessing.py,
    gtda/homology/_utils.py and gtda/utils/validation.py (check_diagrams).

    A collection of diagrams (3D float array) is a list (samples) of lists
    (rows) of birth-death-dimension triples. *)
From Verif Require Import Np Fl.
From Verif Require Export DiagTypes.
Open Scope Z_scope.

(** ** numpy helpers (external) *)

(** [np.unique]: sorted distinct values. *)
Fixpoint insert_unique (x : fl) (l : list fl) : list fl :=
  match l with
  | [] => [x]
  | y :: t => if feq x y then l
              else if flt x y then x :: l
              else y :: insert_unique x t
  end.
Definition np_unique (l : list fl) : list fl := fold_right insert_unique [] l.

(** [np.min] / [np.max] of a non-empty 1D array (ValueError when empty). *)
Definition np_min (l : list fl) : res fl :=
  match l with [] => Err ValueError | x :: t => Ok (fold_left fmin t x) end.
Definition np_max (l : list fl) : res fl :=
  match l with [] => Err ValueError | x :: t => Ok (fold_left fmax t x) end.

(** C-order reshape of a flat list to [n] rows of length [k]; ValueError when
    the sizes do not match. *)
Fixpoint chunk {A} (n : nat) (k : nat) (l : list A) : list (list A) :=
  match n with
  | O => []
  | S n' => firstn k l :: chunk n' k (skipn k l)
  end.
Definition np_reshape {A} (n k : Z) (l : list A) : res (list (list A)) :=
  if zlen l =? n * k then Ok (chunk (Z.to_nat n) (Z.to_nat k) l)
  else Err ValueError.

(** [np.concatenate([A, B, ...], axis=1)] on arrays with the same number [n] of
    rows: row i is A[i] ++ B[i] ++ ...  *)
Definition hcat {A} (n : Z) (Ls : list (list (list A))) : list (list A) :=
  tabZ n (fun i => concat (map (fun L => match Znth L i with
                                         | Some r => r | None => [] end) Ls)).

(** ** gtda/utils/validation.py, check_diagrams, lines 28-87, with
    _check_array_mod, lines 14-25 (called with [force_all_finite=False]: any NaN
    in the array raises ValueError).
    The argument is the array obtained after sklearn's [check_array]: its shape
    and its flat C-order data; [check_array] also rejects arrays without
    samples.  Type conversion and copying are not modelled. *)
Definition row3 (data : list fl) (k : Z) : pt :=
  let g j := match Znth data (3 * k + j) with Some x => x | None => NaN end in
  Pt (g 0) (g 1) (g 2).

(** validation.py lines 62-77: the loop over [sorted(np.unique(X[0, :, 2]))];
    [int(dim)] raises ValueError on NaN and OverflowError on -inf. *)
Definition check_dim (n_dims : Z) (dim : fl) : res unit :=
  if feq dim PInf then
    if negb (n_dims =? 1) then Err ValueError else Ok tt
  else match dim with
       | NaN => Err ValueError
       | NInf => Err OverflowError
       | PInf => Ok tt
       | Fin q =>
           let trunc := Z.quot (Qnum q) (Zpos (Qden q)) in
           if negb (feq dim (fz trunc)) || flt dim f0 then Err ValueError
           else Ok tt
       end.

Definition check_diagrams (shape : list Z) (data : list fl)
  : res (list diagram) :=
  match shape with
  | [] => Err ValueError
  | n0 :: _ =>
    if n0 <? 1 then Err ValueError else
    if existsb isnan data then Err ValueError else
    match shape with
    | [n; m; c] =>
      if negb (c =? 3) then Err ValueError else
      let X := tabZ n (fun i => tabZ m (fun j => row3 data (i * m + j))) in
      let dims := np_unique (match Znth X 0 with
                             | Some x => map pq x | None => [] end) in
      do _ <- mapM (check_dim (zlen dims)) dims;
      let below := filter (fun p => flt (pd p) (pb p)) (concat X) in
      if negb (zlen below =? 0) then Err ValueError else Ok X
    | _ => Err ValueError
    end
  end.

(** ** gtda/diagrams/_utils.py *)

(** _homology_dimensions_to_sorted_ints, lines 7-11, on the output of
    [np.unique] (already sorted, distinct); casting to int does not change the
    value of a dimension accepted by [check_diagrams]. *)
Definition first_dims (X : list diagram) : res (list fl) :=
  match X with
  | [] => Err IndexError
  | x0 :: _ => Ok (np_unique (map pq x0))
  end.

(** _subdiagrams, lines 14-52. *)
Definition subdiagrams_single (X : list diagram) (dim : fl) : res (list diagram) :=
  match X with
  | [] => Err IndexError
  | X_0 :: _ =>
      let n_samples := zlen X in
      let n_features_in_dim := zlen (filter (fun p => feq (pq p) dim) X_0) in
      np_reshape n_samples n_features_in_dim
                 (filter (fun p => feq (pq p) dim) (concat X))
  end.
Definition subdiagrams (X : list diagram) (dims : list fl) : res (list diagram) :=
  match X, dims with
  | [], _ => Err IndexError
  | _, [dim] => subdiagrams_single X dim
  | _, [] => Err ValueError   (* np.concatenate of an empty list *)
  | _, _ =>
      do parts <- mapM (subdiagrams_single X) dims;
      Ok (hcat (zlen X) parts)
  end.
(** [remove_dim=True]: keep columns 0 and 1 (line 51). *)
Definition remove_dim (X : list diagram) : list (list (fl * fl)) :=
  map (map (fun p => (pb p, pd p))) X.

(** _multirange, lines 63-77.  [counts] is a non-empty integer array.
    [np.cumsum], then an array of ones whose entry 0 is 0 and whose entries at
    the partial sums are 1 - counts[:-1] (assigned in order), then cumsum. *)
Fixpoint cumsum_from (acc : Z) (l : list Z) : list Z :=
  match l with
  | [] => []
  | x :: t => (acc + x) :: cumsum_from (acc + x) t
  end.
Definition cumsum (l : list Z) : list Z := cumsum_from 0 l.
Definition last_default (d : Z) (l : list Z) : Z := last l d.
Definition multirange (counts : list Z) : list Z :=
  let cs := cumsum counts in
  let reset_index := removelast cs in
  let incr := tabZ (last_default 0 cs) (fun _ => 1) in
  let incr := set_at incr 0 0 in
  let incr := fold_left (fun inc rv => set_at inc (fst rv) (snd rv))
                (combine reset_index (map (fun c => 1 - c) (removelast counts)))
                incr in
  cumsum incr.

(** [np.unique(rows, return_counts=True)] on the non-decreasing row-index array
    returned by [np.nonzero]. *)
Fixpoint count_runs (l : list Z) : list (Z * Z) :=
  match l with
  | [] => []
  | x :: t => match count_runs t with
              | (y, c) :: r => if x =? y then (y, c + 1) :: r
                               else (x, 1) :: (y, c) :: r
              | [] => [(x, 1)]
              end
  end.

(** [np.nonzero] of the 2D mask [f], together with the triples at the indices
    (row-major order): pairs (sample index, triple). *)
Definition nonzero_pts (f : pt -> bool) (X : list diagram) : list (Z * pt) :=
  concat (tabZ (zlen X) (fun i => match Znth X i with
                                  | Some x => map (fun p => (i, p)) (filter f x)
                                  | None => [] end)).

(** [A[rows, cols] = vals] on a 2D array (in order, last write wins). *)
Definition set_at2 {A} (M : list (list A)) (i j : Z) (v : A) : list (list A) :=
  match Znth M i with
  | Some r => set_at M i (set_at r j v)
  | None => M
  end.
Definition scatter {A} (M : list (list A)) (rows cols : list Z) (vals : list A)
  : list (list A) :=
  fold_left (fun M' rcv => set_at2 M' (fst (fst rcv)) (snd (fst rcv)) (snd rcv))
            (combine (combine rows cols) vals) M.

Definition zmax_list (l : list Z) : Z := fold_right Z.max 0 l.
Definition memf (x : fl) (l : list fl) : bool := existsb (feq x) l.

(** _filter, lines 80-122. *)
Definition filter_dim (X : list diagram) (cutoff : fl) (dim : fl)
  : res (list diagram) :=
  let n := zlen X in
  let idx := nonzero_pts
     (fun p => feq (pq p) dim && flt cutoff (fsub (pd p) (pb p))) X in
  if zlen idx =? 0 then
    Ok (tabZ n (fun _ => [Pt f0 f0 dim]))
  else
    let counts := map snd (count_runs (map fst idx)) in
    let max_n_points := zmax_list counts in
    let X_indices := map snd idx in
    do min_value <- np_min (map pb X_indices);
    let Xdim := tabZ n (fun _ => tabZ max_n_points
                                  (fun _ => Pt min_value min_value dim)) in
    Ok (scatter Xdim (map fst idx) (multirange counts) X_indices).

Definition filter_diagrams (X : list diagram) (filtered : list fl) (cutoff : fl)
  : res (list diagram) :=
  let n := zlen X in
  do homology_dimensions <- first_dims X;
  let unfiltered :=
    filter (fun dim => negb (memf dim filtered)) homology_dimensions in
  do Xuf <- match unfiltered with
            | [] => Ok (tabZ n (fun _ => []))
            | _ => subdiagrams X unfiltered
            end;
  do Xf <- mapM (filter_dim X cutoff) filtered;
  Ok (hcat n (Xf ++ [Xuf])).

(** ** gtda/diagrams/preprocessing.py *)

(** ForgetDimension.transform, lines 85-89. *)
Definition forget_dimension (X : list diagram) : list diagram :=
  map (map (fun p => Pt (pb p) (pd p) PInf)) X.

(** Scaler.transform / inverse_transform, lines 292-296 and 313-317. *)
Definition scaler_transform (scale : fl) (X : list diagram) : list diagram :=
  map (map (fun p => Pt (fdiv (pb p) scale) (fdiv (pd p) scale) (pq p))) X.
Definition scaler_inverse_transform (scale : fl) (X : list diagram)
  : list diagram :=
  map (map (fun p => Pt (fmul (pb p) scale) (fmul (pd p) scale) (pq p))) X.

(** _metrics.py, bottleneck_amplitudes, lines 341-343, on one subdiagram:
    np.linalg.norm(half_lifetimes, ord=inf) = max of the absolute values
    (ValueError on an empty subdiagram). *)
Definition bottleneck_amplitude (x : diagram) : res fl :=
  np_max (map (fun p => fabs (fdiv (fsub (pd p) (pb p)) (fz 2))) x).

(** Scaler.fit, lines 232-267, for metric='bottleneck' (no sampling is used) and
    function=np.max: the maximum over the (n_samples, n_dimensions) array of
    amplitudes. *)
Definition scaler_fit_bottleneck (X : list diagram) : res fl :=
  do dims <- first_dims X;
  do amps <- mapM (fun dim => do Xs <- subdiagrams X [dim];
                              mapM bottleneck_amplitude Xs) dims;
  np_max (concat amps).

(** Python's [sorted] on a list of floats without NaN. *)
Fixpoint insert_sorted (x : fl) (l : list fl) : list fl :=
  match l with
  | [] => [x]
  | y :: t => if fle x y then x :: l else y :: insert_sorted x t
  end.
Definition py_sorted (l : list fl) : list fl := fold_right insert_sorted [] l.

(** Filtering.fit, lines 437-449, with _homology_dimensions_to_sorted_ints
    (_utils.py lines 7-11) applied to the requested dimensions. *)
Definition filtering_fit (homology_dimensions : option (list Z))
  (X : list diagram) : res (list fl) :=
  match homology_dimensions with
  | None => first_dims X
  | Some ds => Ok (py_sorted (map fz ds))
  end.
(** Filtering.fit(X) then transform(Y), lines 475-479. *)
Definition filtering_fit_transform (homology_dimensions : option (list Z))
  (epsilon : fl) (X Y : list diagram) : res (list diagram) :=
  do ds <- filtering_fit homology_dimensions X;
  filter_diagrams Y ds epsilon.

(** ** gtda/homology/_utils.py, _postprocess_diagrams, lines 7-65 *)

(** largest finite float64, 2^1024 - 2^971 *)
Definition float_max : Qc := Q2Qc (inject_Z (2 ^ 1024 - 2 ^ 971)).

(** [np.nan_to_num(x, posinf=infinity_values)], line 12. *)
Definition nan_to_num (infinity_values : fl) (x : fl) : fl :=
  match x with
  | NaN => f0
  | PInf => infinity_values
  | NInf => Fin (- float_max)%Qc
  | Fin q => Fin q
  end.

(** replace_infinity_values, lines 11-13. *)
Definition replace_infinity_values (infinity_values : fl)
  (sub : list (fl * fl)) : list (fl * fl) :=
  filter (fun p => flt (fst p) (snd p))
    (map (fun p => (nan_to_num infinity_values (fst p),
                    nan_to_num infinity_values (snd p))) sub).

(** Lines 17-33: the subdiagram of one sample in dimension [dim]. *)
Definition extract_sub (reduced : bool) (infinity_values : fl) (d : backend)
  (dim : Z) : res (list (fl * fl)) :=
  let keep_all := negb (dim =? 0) || negb reduced in
  match d with
  | ByDimension subs =>
      do s <- py_get subs dim;
      Ok (replace_infinity_values infinity_values
            (if keep_all then s else py_sub None (Some (-1)) s))
  | Tagged pers =>
      let s := map snd (filter (fun e => fst e =? dim) pers) in
      Ok (replace_infinity_values infinity_values
            (if keep_all then s else py_sub (Some 1) None s))
  end.

(** Lines 44-48: [min] over samples of the minimal birth, inf for empty
    subdiagrams; inf is turned into 0. *)
Definition sub_min (sub : list (fl * fl)) : fl :=
  match map fst sub with
  | [] => PInf
  | x :: t => fold_left fmin t x
  end.
Definition padding_value (subs : list (list (fl * fl))) : fl :=
  let m := match map sub_min subs with
           | [] => PInf
           | x :: t => fold_left (fun a b => if flt b a then b else a) t x
           end in
  if feq m PInf then f0 else m.

(** Lines 40-43: number of rows reserved for a dimension. *)
Definition slots (subs : list (list (fl * fl))) : Z :=
  Z.max 1 (zmax_list (map zlen subs)).

(** Lines 50-63: rows of one sample.  [np.empty] gives [n_features] arbitrary
    rows [junk]; for every dimension the dimension column, the non-trivial rows
    and the padding rows are written at positions given by the cumulated slot
    counts.  (The code loops over dimensions outside and samples inside; the
    writes of different samples touch different rows of the 3D array.) *)
Definition set_q (dim : fl) (p : pt) : pt := Pt (pb p) (pd p) dim.
Definition set_bd (bd : fl * fl) (p : pt) : pt := Pt (fst bd) (snd bd) (pq p).
Definition fill_dim (row : diagram) (start_idx end_idx : Z) (dim pad : fl)
  (sub : list (fl * fl)) : diagram :=
  let row := upd_range start_idx end_idx (fun _ p => set_q dim p) row in
  let end_idx_nontrivial := start_idx + zlen sub in
  let row := upd_range start_idx end_idx_nontrivial
               (fun k p => match Znth sub k with
                           | Some bd => set_bd bd p | None => p end) row in
  upd_range end_idx_nontrivial end_idx (fun _ p => set_bd (pad, pad) p) row.

Definition postprocess_diagrams (junk : pt) (Xt0 : list backend)
  (homology_dimensions : list Z) (infinity_values : fl) (reduced : bool)
  : res (list diagram) :=
  do Xt <- mapM (fun d => mapM (extract_sub reduced infinity_values d)
                               homology_dimensions) Xt0;
  match Xt with
  | [] => Err ValueError    (* min([]) *)
  | _ =>
    (* the subdiagrams of all samples in the i-th dimension *)
    let col i := map (fun s => match Znth s i with Some x => x | None => [] end) Xt in
    let n_dims := zlen homology_dimensions in
    let start_idx := cumsum (0 :: tabZ n_dims (fun i => slots (col i))) in
    let pads := tabZ n_dims (fun i => padding_value (col i)) in
    let idx i := match Znth start_idx i with Some k => k | None => 0 end in
    let n_features := last start_idx 0 in
    let fill_sample (s : list (list (fl * fl))) :=
      fold_left (fun row i =>
        fill_dim row (idx i) (idx (i + 1))
          (match Znth homology_dimensions i with Some d => fz d | None => NaN end)
          (match Znth pads i with Some p => p | None => NaN end)
          (match Znth s i with Some x => x | None => [] end))
        (arange n_dims) (tabZ n_features (fun _ => junk)) in
    Ok (map fill_sample Xt)
  end.
