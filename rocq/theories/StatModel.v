(** Model of gtda/time_series/features.py (PermutationEntropy) and gtda/time_series/multivariate.py
    (PearsonDissimilarity).  Values are exact reals; NaN and infinite inputs are rejected by
    check_array and not modelled.  Arrays have three dimensions, none of length 0. *)
From Coq Require Import Reals.
From Verif Require Import Np Fl RNp FeatModel ImgModel.
Open Scope Z_scope.

(** numpy (external): the lexicographic order of rows, and np.unique(axis=0, return_counts=True): the
    different rows in this order with the number of times they occur *)
Fixpoint lex (u v : list Z) : comparison :=
  match u, v with
  | [], [] => Eq
  | [], _ => Lt
  | _, [] => Gt
  | a :: u, b :: v => match a ?= b with Eq => lex u v | c => c end
  end.
Fixpoint count_in (p : list Z) (l : list (list Z * Z)) : list (list Z * Z) :=
  match l with
  | [] => [(p, 1)]
  | (q, c) :: t =>
      match lex p q with
      | Eq => (q, c + 1) :: t
      | Lt => (p, 1) :: l
      | Gt => (q, c) :: count_in p t
      end
  end.
Definition unique_counts (x : list (list Z)) : list (list Z * Z) := fold_right count_in [] x.

(** features.py lines 47-50 _entropy_2d *)
Definition entropy_2d (x : list (list Z)) : xr := entropy2 (map (fun c => IZR (snd c)) (unique_counts x)).
(** lines 52-57 _permutation_entropy: one row for each sample.  [argsort]: np.argsort of a row (external) *)
Definition permutation_entropy1 (argsort : list R -> list Z) (x : list (list R)) : list xr := [entropy_2d (map argsort x)].
Definition permutation_entropy_ (argsort : list R -> list Z) (X : list (list (list R))) : list (list xr) :=
  map (permutation_entropy1 argsort) X.
(** lines 84-110 transform *)
Definition permutation_entropy (argsort : list R -> list Z) (n_jobs : Z) (X : list (list (list R))) : res (list (list xr)) :=
  parallel (fun b => Ok (permutation_entropy_ argsort b)) n_jobs X.

(** numpy (external): np.cov(sample, rowvar=False).  With one observation the factor 1 / 0 is infinite
    and its product with the centred values, which are 0, is NaN. *)
Definition column (sample : list (list R)) (j : Z) : list R :=
  map (fun row => match Znth row j with Some v => v | None => 0%R end) sample.
Definition average (v : list R) : R := (rsum v / IZR (zlen v))%R.
Definition centred (v : list R) : list R := map (fun a => (a - average v)%R) v.
Definition dot (u v : list R) : R := rsum (map (fun ab => (fst ab * snd ab)%R) (combine u v)).
Definition np_cov (sample : list (list R)) (i j : Z) : xr :=
  let fact := zlen sample - 1 in
  if fact <=? 0 then XNaN
  else XFin (dot (centred (column sample i)) (centred (column sample j)) * (1 / IZR fact))%R.
(** numpy (external): np.corrcoef(sample, rowvar=False) for d columns; with one column the covariance
    is a scalar and is divided by itself *)
Definition xsqrt (a : xr) : xr := match a with XFin r => XFin (sqrt r) | a => a end.
Definition xclip (a : xr) : xr :=
  match a with XFin r => XFin (Rmin (Rmax r (-1)) 1) | XPInf => XFin 1 | XNInf => XFin (-1) | XNaN => XNaN end.
Definition np_corrcoef (sample : list (list R)) (d : Z) : list (list xr) :=
  if d =? 1 then [[xdiv (np_cov sample 0 0) (np_cov sample 0 0)]]
  else tabZ d (fun i => tabZ d (fun j =>
         xclip (xdiv (xdiv (np_cov sample i j) (xsqrt (np_cov sample i i))) (xsqrt (np_cov sample j j))))).

(** multivariate.py lines 104-107; the entries of Xt are finite or NaN *)
Definition xmap (f : R -> R) (a : xr) : xr := match a with XFin r => XFin (f r) | a => a end.
Definition pearson1 (absolute_value : bool) (sample : list (list R)) (d : Z) : list (list xr) :=
  let Xt := np_corrcoef sample d in
  map (map (xmap (fun c => if negb absolute_value then 1 / 2 - c / 2 else 1 - Rabs c)%R)) Xt.
(** lines 82-109 transform; d is X.shape[2] *)
Definition pearson (absolute_value : bool) (X : list (list (list R))) (d : Z) : res (list (list (list xr))) :=
  match X with
  | [] => Err ValueError
  | _ => Ok (map (fun sample => pearson1 absolute_value sample d) X)
  end.
