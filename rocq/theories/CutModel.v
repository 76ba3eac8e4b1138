(** Model of the fitting of the gap clusterers of gtda/mapper/cluster.py: the linkage tree,
    the cut and the attributes.  The number of clusters is that of GapModel.v.

    scikit-learn's tree builders are an arbitrary function; scikit-learn's [_hc_cut], which turns
    tree and number of clusters into labels, is written out below.  Its heap (Python's [heapq])
    is a parameter: two functions on lists. *)
From Coq Require Import String.
From Verif Require Import Np Fl GapModel.
Open Scope Z_scope.

(** sklearn.cluster._hierarchical (external) _hc_get_descendents: the leaves under a node.  The loop
    with an explicit stack is written as a recursion; RuntimeError stands for an endless
    loop. *)
Fixpoint descendents (fuel : nat) (children : list (Z * Z)) (n_leaves node : Z) : res (list Z) :=
  if node <? n_leaves then Ok [node]
  else match fuel with
       | O => Err RuntimeError
       | S fuel =>
           do c <- py_get children (node - n_leaves);
           do r <- descendents fuel children n_leaves (snd c);
           do l <- descendents fuel children n_leaves (fst c);
           Ok (r ++ l)
       end.

(** numpy (external) label[idx] = i; negative positions, which do not occur, are
    refused instead of counted from the end. *)
Definition assign (label : list Z) (idx : list Z) (i : Z) : res (list Z) :=
  if forallb (fun x => (0 <=? x) && (x <? zlen label)) idx
  then Ok (mapi (fun x old => if existsb (Z.eqb x) idx then i else old) label)
  else Err IndexError.

Section Cut.
Variable heappush heappushpop : list Z -> Z -> list Z.

(** sklearn.cluster._agglomerative (external) _hc_cut: the loop splitting the node of
    largest number *)
Fixpoint split_nodes (times : nat) (children : list (Z * Z)) (n_leaves : Z) (nodes : list Z) : res (list Z) :=
  match times with
  | O => Ok nodes
  | S times =>
      do top <- py_get nodes 0;
      do c <- py_get children (- top - n_leaves);
      split_nodes times children n_leaves (heappushpop (heappush nodes (- fst c)) (- snd c))
  end.
Fixpoint label_nodes (i : Z) (nodes : list Z) (children : list (Z * Z)) (n_leaves : Z) (label : list Z) : res (list Z) :=
  match nodes with
  | [] => Ok label
  | node :: nodes =>
      do d <- descendents (Z.to_nat (1 - node)) children n_leaves (- node);
      do label' <- assign label d i;
      label_nodes (i + 1) nodes children n_leaves label'
  end.
Definition hc_cut (n_clusters : Z) (children : list (Z * Z)) (n_leaves : Z) : res (list Z) :=
  if n_leaves <? n_clusters then Err ValueError
  else
    do last <- py_get children (-1);
    do nodes <- split_nodes (Z.to_nat (n_clusters - 1)) children n_leaves [- (Z.max (fst last) (snd last) + 1)];
    label_nodes 0 nodes children n_leaves (tabZ n_leaves (fun _ => 0)).

(** The attributes of FirstSimpleGap and FirstHistogramGap; [None] is an attribute that is not
    set. *)
Record attrs := Attrs {
  labels_ : option (list Z);
  n_clusters_ : option Z;
  children_ : option (list (Z * Z));
  n_leaves_ : option Z;
  distances_ : option (list Qc)
}.
Definition no_attrs : attrs := Attrs None None None None None.

Variable X : Type.
(** sklearn.utils.check_array (external): the number of samples, or an error *)
Variable check_array : X -> res Z.
(** scikit-learn's tree builders (external) by name, with the affinity if it is passed on: children,
    number of leaves and distances *)
Variable tree_builder : string -> option string -> X -> res (list (Z * Z) * Z * list Qc).

(** cluster.py lines 297-319 Agglomerative._build_tree; [memory] is left out (a
    cached result equals a new one). *)
Definition build_tree (linkage affinity : string) (x : X) : res (list (Z * Z) * Z * list Qc) :=
  if String.eqb linkage "ward" && negb (String.eqb affinity "euclidean") then Err ValueError
  else if negb (existsb (String.eqb linkage) ["ward"%string; "complete"%string; "average"%string; "single"%string]) then Err ValueError
  else tree_builder linkage (if String.eqb linkage "ward" then None else Some affinity) x.

(** cluster.py lines 438-458 and 592-612: the common shape of FirstSimpleGap.fit and
    FirstHistogramGap.fit; [valid] stands for validate_params (lines 402-408 and 552-560)
    and [count] computes the number of clusters from the distances.  The attributes
    after the call, and its outcome. *)
Definition fit_gap (valid : bool) (count : list Qc -> res Z) (linkage affinity : string) (st : attrs) (x : X) : attrs * res unit :=
  match check_array x with
  | Err e => (st, Err e)
  | Ok n_samples =>
      if negb valid then (st, Err ValueError)
      else if n_samples =? 1 then
        (Attrs (Some [0]) (Some 1) (children_ st) (n_leaves_ st) (distances_ st), Ok tt)
      else
        match build_tree linkage affinity x with
        | Err e => (st, Err e)
        | Ok (children, n_leaves, distances) =>
            let st1 := Attrs (labels_ st) (n_clusters_ st) (Some children) (Some n_leaves) (Some distances) in
            match count distances with
            | Err e => (st1, Err e)
            | Ok k =>
                match hc_cut k children n_leaves with
                | Err e => (Attrs (labels_ st) (Some k) (Some children) (Some n_leaves) (Some distances), Err e)
                | Ok l => (Attrs (Some l) (Some k) (Some children) (Some n_leaves) (Some distances), Ok tt)
                end
            end
        end
  end.

(** cluster.py lines 418-458 FirstSimpleGap.fit *)
Definition fit_simple (linkage affinity : string) (relative_gap_size max_fraction : Qc) : attrs -> X -> attrs * res unit :=
  fit_gap (in_unit relative_gap_size && in_unit max_fraction)
    (fun distances =>
       do d <- py_get distances (-1);
       num_clusters_simple distances (relative_gap_size * d)%Qc (Some max_fraction))
    linkage affinity.

(** cluster.py lines 572-612 FirstHistogramGap.fit *)
Definition fit_histogram (linkage affinity : string) (freq_threshold n_bins_start : Z) (max_fraction : Qc) : attrs -> X -> attrs * res unit :=
  fit_gap ((0 <=? freq_threshold) && (1 <=? n_bins_start) && in_unit max_fraction)
    (fun distances => num_clusters_histogram distances freq_threshold n_bins_start max_fraction)
    linkage affinity.

(** sklearn.base.ClusterMixin (external) fit_predict *)
Definition fit_predict (fit : attrs -> X -> attrs * res unit) (st : attrs) (x : X) : attrs * res (list Z) :=
  match fit st x with
  | (st', Err e) => (st', Err e)
  | (st', Ok _) => match labels_ st' with Some l => (st', Ok l) | None => (st', Err AttributeError) end
  end.
End Cut.
