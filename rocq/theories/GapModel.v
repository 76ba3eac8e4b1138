(** Model of the gap heuristics of gtda/mapper/utils/_cluster.py and of the
    clusterers FirstSimpleGap and FirstHistogramGap of gtda/mapper/cluster.py.

    Floats are exact rationals.  [distances] are the merge heights of the
    linkage tree, which is built by scikit-learn and is not modelled; there are
    n_samples - 1 of them.  The labels are obtained from n_clusters_ by
    scikit-learn's _hc_cut, which is not modelled either. *)
From Coq Require Import Qround.
From Verif Require Import Np Fl.
Open Scope Z_scope.

(** math.floor *)
Definition qfloor (q : Qc) : Z := Qfloor (this q).

(** np.ediff1d(distances, to_begin=distances[0]) *)
Fixpoint diffs (prev : Qc) (l : list Qc) : list Qc :=
  match l with
  | [] => []
  | x :: t => (x - prev)%Qc :: diffs x t
  end.
Definition ediff1d (l : list Qc) : list Qc :=
  match l with
  | [] => []
  | x :: t => x :: diffs x t
  end.
(** The first index satisfying a predicate (np.flatnonzero(...)[0]) *)
Fixpoint first_from {A} (i : Z) (f : A -> bool) (l : list A) : option Z :=
  match l with
  | [] => None
  | x :: t => if f x then Some i else first_from (i + 1) f t
  end.
Definition first_index {A} (f : A -> bool) (l : list A) : option Z := first_from 0 f l.

(** utils/_cluster.py lines 58-71 _num_clusters_simple *)
Definition num_clusters_simple (distances : list Qc) (min_gap_size : Qc) (max_frac : option Qc) : res Z :=
  match distances with
  | [] => Err IndexError
  | _ =>
    let diff := ediff1d distances in
    match first_index (fun d => Qcleb min_gap_size d) diff with
    | Some g =>
        let num_clust := zlen distances + 1 - g in
        match max_frac with
        | None => Ok num_clust
        | Some mf =>
            let max_num_clust := (mf * qz (zlen distances + 1))%Qc in
            if Qcltb max_num_clust (qz num_clust) then Ok (qfloor max_num_clust)
            else Ok (qfloor (qz num_clust))
        end
    | None => Ok 1
    end
  end.

(** np.histogram(distances, bins=k): range and edges of the k equal bins; all bins
    but the last are half-open.  numpy's binning is modelled by its documented
    result. *)
Definition qmin (l : list Qc) : Qc :=
  match l with [] => 0%Qc | x :: t => fold_left (fun m y => if Qcltb y m then y else m) t x end.
Definition qmax (l : list Qc) : Qc :=
  match l with [] => 1%Qc | x :: t => fold_left (fun m y => if Qcltb m y then y else m) t x end.
Definition hist_range (l : list Qc) : Qc * Qc :=
  let '(lo, hi) := (qmin l, qmax l) in
  if Qceqb lo hi then ((lo - Q2Qc (1 # 2))%Qc, (hi + Q2Qc (1 # 2))%Qc) else (lo, hi).
Definition bin_edge (l : list Qc) (k j : Z) : Qc :=
  let '(lo, hi) := hist_range l in (lo + qz j * ((hi - lo) / qz k))%Qc.
Definition in_bin (l : list Qc) (k j : Z) (x : Qc) : bool :=
  Qcleb (bin_edge l k j) x &&
  (Qcltb x (bin_edge l k (j + 1)) || ((j =? k - 1) && Qcleb x (bin_edge l k (j + 1)))).
Definition histogram (l : list Qc) (k : Z) : list Z :=
  tabZ k (fun j => zlen (filter (in_bin l k j) l)).

(** utils/_cluster.py lines 50-55 _zero_bins and _bins_below_threshold, with the choice
    between them of lines 11-14 *)
Definition gap_bin (freq_threshold : Z) (count : Z) : bool :=
  if freq_threshold =? 0 then count =? 0 else count <? freq_threshold.

(** The loops of lines 19-23 and 31-36 (the outer loop of the latter is left
    after one pass): the number of bins and the first gap.  [None] when the fuel
    is exhausted, which is proved not to happen. *)
Fixpoint gap_loop (fuel : nat) (distances : list Qc) (freq_threshold k : Z) : option (Z * Z) :=
  match first_index (gap_bin freq_threshold) (histogram distances k) with
  | Some g => Some (k, g)
  | None => match fuel with
            | O => None
            | S fuel => gap_loop fuel distances freq_threshold (k + 1)
            end
  end.

(** utils/_cluster.py lines 7-47 _num_clusters_histogram; RuntimeError stands for an
    endless loop. *)
Definition num_clusters_histogram (distances : list Qc) (freq_threshold n_bins_start : Z) (max_frac : Qc) : res Z :=
  if zlen distances =? 1 then Ok 1
  else match gap_loop (length distances) distances freq_threshold n_bins_start with
       | None => Err RuntimeError
       | Some (k, first_gap) =>
           let gap_idx := zlen (filter (fun x => Qcleb x (bin_edge distances k first_gap)) distances) in
           let num_clust := zlen distances + 1 - gap_idx in
           if Qceqb max_frac 1 then Ok (qfloor (qz num_clust))
           else
             let max_num_clust := (max_frac * qz (zlen distances + 1))%Qc in
             if Qcltb max_num_clust (qz num_clust) then Ok (qfloor max_num_clust)
             else Ok (qfloor (qz num_clust))
       end.

(** cluster.py lines 402-408, 438-451 FirstSimpleGap.fit: n_clusters_ *)
Definition in_unit (x : Qc) : bool := Qcltb 0 x && Qcleb x 1.
Definition first_simple_gap (relative_gap_size max_fraction : Qc) (n_samples : Z) (distances : list Qc) : res Z :=
  if negb (in_unit relative_gap_size && in_unit max_fraction) then Err ValueError
  else if n_samples =? 1 then Ok 1
  else
    do d <- py_get distances (-1);
    num_clusters_simple distances (relative_gap_size * d)%Qc (Some max_fraction).

(** cluster.py lines 552-560, 592-605 FirstHistogramGap.fit: n_clusters_ *)
Definition first_histogram_gap (freq_threshold n_bins_start : Z) (max_fraction : Qc) (n_samples : Z) (distances : list Qc) : res Z :=
  if negb ((0 <=? freq_threshold) && (1 <=? n_bins_start) && in_unit max_fraction) then Err ValueError
  else if n_samples =? 1 then Ok 1
  else num_clusters_histogram distances freq_threshold n_bins_start max_fraction.
