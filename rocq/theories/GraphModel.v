(** Model of gtda/graphs: transition.py (TransitionGraph) and geodesic_distance.py
    (GraphGeodesicDistance). *)
From Coq Require Import String.
From Verif Require Import Np Fl.
Open Scope Z_scope.

(** numpy (external): lexicographic order on rows, as np.unique(axis=0) sorts them *)
Fixpoint row_ltb (a b : list Qc) : bool :=
  match a, b with
  | [], [] => false
  | [], _ :: _ => true
  | _ :: _, [] => false
  | x :: a, y :: b => Qcltb x y || (Qceqb x y && row_ltb a b)
  end.
Fixpoint row_eqb (a b : list Qc) : bool :=
  match a, b with
  | [], [] => true
  | x :: a, y :: b => Qceqb x y && row_eqb a b
  | _, _ => false
  end.
(** np.unique(rows, axis=0, return_inverse=True) *)
Fixpoint insert_row (r : list Qc) (l : list (list Qc)) : list (list Qc) :=
  match l with
  | [] => [r]
  | h :: t => if row_ltb r h then r :: l else if row_eqb r h then l else h :: insert_row r t
  end.
Fixpoint index_of (r : list Qc) (l : list (list Qc)) : Z :=
  match l with [] => 0 | h :: t => if row_eqb r h then 0 else 1 + index_of r t end.
Definition np_unique (rows : list (list Qc)) : list (list Qc) * list Z :=
  let u := fold_right insert_row [] rows in (u, map (fun r => index_of r u) rows).
(** np.apply_along_axis(func, 1, X): ValueError without rows; the results must have one length *)
Definition apply_along_rows (func : list Qc -> res (list Qc)) (X : list (list Qc)) : res (list (list Qc)) :=
  match X with
  | [] => Err ValueError
  | _ => do rows <- mapM func X;
         match rows with
         | r :: _ => if forallb (fun r' => zlen r' =? zlen r) rows then Ok rows else Err ValueError
         | [] => Err ValueError
         end
  end.
(** scipy.sparse.csr_matrix((data, (row, col)), shape=(n, n)), as the dense array it stands for:
    entries given more than once are added up *)
Definition csr_entry (data row col : list Z) (i j : Z) : Z :=
  fold_right Z.add 0
    (map (fun e => if (fst (snd e) =? i) && (snd (snd e) =? j) then fst e else 0)
         (combine data (combine row col))).
Definition csr_matrix (data row col : list Z) (n : Z) : list (list Z) :=
  tabZ n (fun i => tabZ n (fun j => csr_entry data row col i j)).
(** boolean indexing l[mask] *)
Definition select {A} (l : list A) (mask : list bool) : list A :=
  map fst (filter snd (combine l mask)).
Definition count_true (mask : list bool) : Z := zlen (filter (fun b => b) mask).

(** transition.py lines 117-130 *)
Definition make_adjacency_matrix (func : list Qc -> res (list Qc)) (X : list (list Qc)) : res (list (list Z)) :=
  do Xm <- apply_along_rows func X;
  let '(unique_states, Xm) := np_unique Xm in
  let n_unique_states := zlen unique_states in
  let first := py_sub None (Some (-1)) Xm in
  let second := py_sub (Some 1) None Xm in
  let non_diag_idx := map (fun p => negb (fst p =? snd p)) (combine first second) in
  let data := repeat 1 (Z.to_nat (count_true non_diag_idx)) in
  let first := select first non_diag_idx in
  let second := select second non_diag_idx in
  Ok (csr_matrix data first second n_unique_states).

(** Functions given by the user: they may take keyword arguments (of type V). *)
Notation params V := (list (string * V)).
Record tg_fitted (V : Type) := TG { tg_func : params V -> list Qc -> res (list Qc); effective_func_params : params V }.
Arguments TG {V}. Arguments tg_func {V}. Arguments effective_func_params {V}.
(** transition.py lines 132-167, after the checks of the input and the parameters; None func is
    the identity *)
Definition tg_fit {V} (func : option (params V -> list Qc -> res (list Qc))) (func_params : option (params V))
  : tg_fitted V :=
  TG (match func with None => fun _ r => Ok r | Some f => f end)
     (match func_params with None => [] | Some p => p end).
(** transition.py lines 169-196, on a collection accepted by check_point_clouds *)
Definition tg_transform {V} (t : tg_fitted V) (X : list (list (list Qc))) : res (list (list (list Z))) :=
  mapM (make_adjacency_matrix (tg_func t [])) X.

(** Adjacency matrices: a dense array (a MaskedArray or a plain one, of Boolean type or not; the
    masked entries are None; True is 1 and False 0) or a sparse matrix with its shape and its
    stored entries. *)
Inductive adj :=
| Dense (masked boolean : bool) (rows : list (list (option fl)))
| Sparse (n_rows n_cols : Z) (stored : list (Z * Z * fl)).

(** numpy (external): truth values, masked entries do not count in np.any *)
Definition truthy (x : fl) : bool := negb (feq x (Fin 0%Qc)).
Definition entries {A} (rows : list (list A)) : list (Z * Z * A) :=
  concat (mapi (fun i r => mapi (fun j x => (i, j, x)) r) rows).
Definition any_unmasked (p : Z -> Z -> fl -> bool) (rows : list (list (option fl))) : bool :=
  existsb (fun e => match snd e with Some x => p (fst (fst e)) (snd (fst e)) x | None => false end) (entries rows).
(** np.ma.masked_invalid: infinities and NaN are masked *)
Definition masked_invalid (rows : list (list (option fl))) : list (list (option fl)) :=
  map (map (fun x => match x with Some (Fin q) => Some (Fin q) | _ => None end)) rows.

(** geodesic_distance.py lines 95-121: the graph and the method given to scipy's shortest_path; the
    warning is not modelled.  A dense array is square. *)
Definition geodesic_arguments (method : string) (X : adj) : adj * string :=
  match X with
  | Dense masked boolean rows =>
      let method_ :=
        if any_unmasked (fun i j x => negb (truthy x || (i =? j))) rows then
          if (String.eqb method "auto" || String.eqb method "FW")%bool then
            if any_unmasked (fun _ _ x => flt x (Fin 0%Qc)) rows then "J"%string else "D"%string
          else method
        else method in
      if negb masked then
        if negb boolean then (Dense true boolean (masked_invalid rows), method_)
        else (X, method_)
      else (X, method_)
  | Sparse r c stored =>
      if r =? c then (X, method)
      else (Sparse (Z.max r c) (Z.max r c) stored, method)
  end.
(** geodesic_distance.py lines 149-190: transform, with shortest_path (external) giving a matrix and
    its shape; [true] when the results are put in a single array *)
Definition geodesic_transform {M} (shortest_path : adj -> bool -> bool -> string -> res M) (shape : M -> Z * Z)
  (directed unweighted : bool) (method : string) (X : list adj) : res (bool * list M) :=
  do Xt <- mapM (fun x => let '(g, m) := geodesic_arguments method x in shortest_path g directed unweighted m) X;
  do x0 <- py_get Xt 0;
  let x0_shape := shape x0 in
  Ok (forallb (fun x => (fst (shape x) =? fst x0_shape) && (snd (shape x) =? snd x0_shape)) Xt, Xt).
