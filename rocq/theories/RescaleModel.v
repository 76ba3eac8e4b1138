(** Model of gtda/point_clouds/rescaling.py: ConsistentRescaling and ConsecutiveRescaling, on exact
    real numbers. *)
From Coq Require Import Reals.
From Verif Require Import Np.
Open Scope Z_scope.

(** numpy (external): M[i, j] = v, for indices inside M *)
Definition set2 {A} (M : list (list A)) (i j : Z) (v : A) : list (list A) :=
  mapi (fun i' r => if i' =? i then set_at r j v else r) M.
Definition get2 {A} (d : A) (M : list (list A)) (i j : Z) : A :=
  match Znth M i with Some r => match Znth r j with Some x => x | None => d end | None => d end.
(** itertools.combinations(range(n), 2) *)
Definition combinations2 (n : Z) : list (Z * Z) :=
  flat_map (fun i => map (fun j => (i, i + 1 + j)) (arange (n - (i + 1)))) (arange n).

(** A result of floating point arithmetic: None stands for an infinity or NaN. *)
Notation fin := (option R).
(** x / sqrt(y): not finite, or NaN, unless y > 0 *)
Definition div_sqrt (x y : R) : fin :=
  if Rlt_dec 0 y then Some (x / sqrt y)%R else None.
Definition fin_add (x y : fin) : fin :=
  match x, y with Some a, Some b => Some (a + b)%R | _, _ => None end.

(** lines 107-122.  [Xm]: the square matrix of pairwise distances; [argsort]: np.argsort of a row
    (external) *)
Definition consistent_rescaling (argsort : list R -> list Z) (neighbor_rank : Z) (Xm : list (list R))
  : res (list (list fin)) :=
  let n := zlen Xm in
  do indices_k_neighbor <- mapM (fun row => py_get (argsort row) neighbor_rank) Xm;
  do distance_k_neighbor <- mapM (fun ri => py_get (fst ri) (snd ri)) (combine Xm indices_k_neighbor);
  let Xc := repeat (repeat (Some 0%R) (length Xm)) (length Xm) in
  let dk i := match Znth distance_k_neighbor i with Some d => d | None => 0%R end in
  let Xc := fold_left (fun Xc ij => let '(i, j) := ij in
              set2 Xc i j (div_sqrt (get2 0%R Xm i j) (dk i * dk j)%R)) (combinations2 n) Xc in
  Ok (tabZ n (fun i => tabZ n (fun j => fin_add (get2 (Some 0%R) Xc i j) (get2 (Some 0%R) Xc j i)))).

(** lines 160-192: [pairwise_distances] (external) gives the distances of a sample *)
Definition consistent_transform {P} (pairwise_distances : P -> res (list (list R))) argsort neighbor_rank (X : list P)
  : res (list (list (list fin))) :=
  mapM (fun x => do Xm <- pairwise_distances x; consistent_rescaling argsort neighbor_rank Xm) X.

(** lines 345-386.  The input is a collection of distance matrices (precomputed) or of point clouds
    of type P.  [is_int]: the array of distance matrices has an integer type; [factor_int]: so has
    factor.  In numpy, multiplying an integer array in place by a float is a TypeError.
    The result is the array returned, with the contents of the input array afterwards. *)
Inductive collection (P : Type) :=
| Precomputed (is_int : bool) (X : list (list (list R)))
| Clouds (X : list P).
Arguments Precomputed {P}. Arguments Clouds {P}.
(** x[range(n - 1), range(1, n)] *= factor *)
Definition scale_superdiagonal (factor : R) (n : Z) (x : list (list R)) : list (list R) :=
  fold_left (fun x i => set2 x i (i + 1) (get2 0%R x i (i + 1) * factor)%R) (arange (n - 1)) x.
(** check_array(copy=True) makes a new array: writing to it leaves the input as it is *)
Definition check_array_copies (copy : bool) : bool := copy.
Definition consecutive_transform {P} (pairwise_distances : P -> res (list (list R)))
  (check_precomputed : list (list R) -> res (list (list R))) (factor : R) (factor_int : bool)
  (X : collection P) : res (list (list (list R)) * collection P) :=
  match X with
  | Precomputed is_int mats =>
      do _ <- mapM check_precomputed mats;
      if is_int && negb factor_int then Err TypeError else
      let Xt := map (fun x => scale_superdiagonal factor (zlen x) x) mats in
      Ok (Xt, if check_array_copies true then X else Precomputed is_int Xt)
  | Clouds clouds =>
      do Xt <- mapM pairwise_distances clouds;
      Ok (map (fun x => scale_superdiagonal factor (zlen x) x) Xt, X)
  end.
