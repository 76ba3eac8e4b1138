(** Model of the scores used to choose the parameters of a Takens embedding,
    gtda/time_series/_utils.py lines 44-89, and of the search with these scores,
    gtda/time_series/embedding.py lines 97-114.  Series of exact real numbers. *)
From Coq Require Import Reals.
From Verif Require Import Np Fl RNp TSModel.
Open Scope Z_scope.

(** ** _mutual_information, _utils.py lines 44-50 *)
(** numpy (external) histogram2d, one axis: the outer edges, widened if all values are equal; the number
    of a value's bin among [m] bins of equal width (searchsorted on the edges, values on the last
    edge being moved to the last bin) *)
Definition outer_edges (l : list R) : R * R :=
  match l with
  | [] => (0, 1)%R
  | x :: t =>
      let lo := fold_left Rmin t x in
      let hi := fold_left Rmax t x in
      if Req_EM_T lo hi then (lo - 1 / 2, hi + 1 / 2)%R else (lo, hi)
  end.
Definition bin_of (e : R * R) (m : Z) (x : R) : Z :=
  let edges := tabZ (m + 1) (fun k => fst e + IZR k * ((snd e - fst e) / IZR m))%R in
  zlen (filter (fun a => if Rle_dec a x then true else false) edges) - 1
  - (if Req_EM_T x (snd e) then 1 else 0).
(** The counts, an m x m array *)
Definition histogram2d (xs ys : list R) (m : Z) : list (list Z) :=
  let bx := bin_of (outer_edges xs) m in
  let by_ := bin_of (outer_edges ys) m in
  tabZ m (fun i => tabZ m (fun j =>
    zlen (filter (fun ab => (bx (fst ab) =? i) && (by_ (snd ab) =? j)) (combine xs ys)))).
(** scikit-learn (external) mutual_info_score(None, None, contingency), in nats.  Only the non-zero
    entries contribute. *)
Definition zsum (l : list Z) : Z := fold_right Z.add 0 l.
Definition mutual_info_score (C : list (list Z)) : R :=
  let N := IZR (zsum (map zsum C)) in
  let pi := map zsum C in
  let m := match C with r :: _ => zlen r | [] => 0 end in
  let pj := map (fun j => zsum (map (fun r => match Znth r j with Some c => c | None => 0 end) C)) (arange m) in
  rsum (map (fun ra => rsum (map (fun cb =>
    if fst cb =? 0 then 0%R
    else (IZR (fst cb) / N * (ln (IZR (fst cb)) - ln N) +
          IZR (fst cb) / N * (- ln (IZR (snd ra * snd cb)) + ln N + ln N))%R)
    (combine (fst ra) pj))) (combine C pi)).
Definition mutual_information (X : list R) (time_delay n_bins : Z) : R :=
  mutual_info_score
    (histogram2d (py_sub None (Some (- time_delay)) X) (py_sub (Some time_delay) None X) n_bins).

(** ** _false_nearest_neighbors, _utils.py lines 53-89 *)
(** numpy (external) roll and std *)
Definition roll {A} (l : list A) (shift : Z) : list A :=
  flat_map (fun i => match Znth l ((i - shift) mod zlen l) with Some x => [x] | None => [] end)
           (arange (zlen l)).
Definition std (X : list R) : R :=
  let n := IZR (zlen X) in
  let mu := (rsum X / n)%R in
  sqrt (rsum (map (fun x => (x - mu) * (x - mu))%R X) / n)%R.
Section Neighbors.
(** scikit-learn (external): NearestNeighbors(n_neighbors=2).fit(points).kneighbors(points), the
    second columns of distances and indices; ValueError for less than two points *)
Variable nn : list (list R) -> list (R * Z).
Definition kneighbors2 (points : list (list R)) : res (list (R * Z)) :=
  if zlen points <? 2 then Err ValueError else Ok (nn points).
Definition false_nearest_neighbors (X : list R) (time_delay dimension stride : Z) : res Z :=
  do X_embedded <- tde time_delay dimension stride true X;
  do neighbor <- kneighbors2 X_embedded;
  let distance := map fst neighbor in
  do X_first_nbhrs <- mapM (py_get X) (map snd neighbor);
  let epsilon := (2 * std X)%R in
  let neg_dim_delay := - dimension * time_delay in
  let distance_slice := py_sub None (Some neg_dim_delay) distance in
  let X_rolled := roll X neg_dim_delay in
  let X_rolled := py_sub (Some (zlen X - zlen X_embedded)) (Some neg_dim_delay) X_rolled in
  let X_first_nbhrs_rolled := py_sub None (Some neg_dim_delay) (roll X_first_nbhrs neg_dim_delay) in
  let neighbor_abs_diff := map (fun ab => Rabs (fst ab - snd ab)) (combine X_rolled X_first_nbhrs_rolled) in
  let false_neighbor_ratio :=
    map (fun ad => if Req_EM_T (snd ad) 0 then 0%R else (fst ad / snd ad)%R)
        (combine neighbor_abs_diff distance_slice) in
  Ok (zlen (filter (fun rd => (if Rlt_dec 10 (fst rd) then true else false)
                              && (if Rlt_dec (snd rd) epsilon then true else false))
                   (combine false_neighbor_ratio distance_slice))).

(** ** takens_embedding_optimal_parameters, embedding.py lines 97-114 *)
Definition real_min (l : list R) : res R :=
  match l with
  | [] => Err ValueError
  | x :: t => Ok (fold_left (fun m y => if Rlt_dec y m then y else m) t x)
  end.
Fixpoint real_index (l : list R) (x : R) : res Z :=
  match l with
  | [] => Err ValueError
  | y :: t => if Req_EM_T y x then Ok 0 else rmap (fun i => i + 1) (real_index t x)
  end.
Definition takens_search (X : list R) (max_time_delay max_dimension stride : Z) : res (Z * Z) :=
  let mis := map (fun t => mutual_information X t 100) (prange 1 (max_time_delay + 1) 1) in
  do m <- real_min mis; do i <- real_index mis m;
  let time_delay := i + 1 in
  do n_false <- mapM (fun dim => false_nearest_neighbors X time_delay dim stride)
                     (prange 1 (max_dimension + 3) 1);
  do vars <- mapM (variation n_false) (prange 2 (max_dimension + 1) 1);
  do v <- py_min vars; do j <- py_index vars v;
  Ok (time_delay, j + 2).
End Neighbors.
