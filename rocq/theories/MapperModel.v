(** Model of gtda/mapper/cluster.py (ParallelClustering), gtda/mapper/nerve.py
    and of their composition in gtda/mapper/pipeline.py.

    Samples and nodes are numbered by integers; a partial cluster label is an
    integer, and the pair (pullback_set_label, partial_cluster_label) is the
    identity of a node. *)
From Verif Require Import Np Fl CoverModel.
Open Scope Z_scope.

(** ** ParallelClustering *)
(** np.flatnonzero of a mask column *)
Fixpoint flatnonzero_from (i : Z) (c : list bool) : list Z :=
  match c with
  | [] => []
  | b :: t => if b then i :: flatnonzero_from (i + 1) t else flatnonzero_from (i + 1) t
  end.
Definition flatnonzero (c : list bool) : list Z := flatnonzero_from 0 c.

(** cluster.py lines 27-32 and 165: X_tot[rel_indices], or X_tot[np.ix_(rel, rel)] for a
    precomputed distance matrix. *)
Definition select_rows {A} (X : list (list A)) (rel : list Z) : res (list (list A)) :=
  gather X rel.
Definition select_block {A} (X : list (list A)) (rel : list Z) : res (list (list A)) :=
  do rows <- gather X rel;
  mapM (fun r => gather r rel) rows.

(** joblib.Parallel: the tasks are run in an arbitrary order [sched] and the
    results are collected in the order of submission.  A task that fails makes
    the whole call fail with the exception of the first failing task that ran. *)
Fixpoint run_tasks {B} (sched : list Z) (task : Z -> res B) (slots : list (option B))
  : res (list (option B)) :=
  match sched with
  | [] => Ok slots
  | k :: t => do r <- task k; run_tasks t task (set_at slots k (Some r))
  end.
Definition collect {B} (slots : list (option B)) : res (list B) :=
  mapM (fun s => match s with Some r => Ok r | None => Err RuntimeError end) slots.
Definition parallel_calls {B} (sched : list Z) (n : Z) (task : Z -> res B) : res (list B) :=
  do slots <- run_tasks sched task (repeat None (Z.to_nat n));
  collect slots.

(** cluster.py lines 172-179: labels_[rel_indices] += labels_i; numpy broadcasts a
    single label and raises ValueError for other lengths. *)
Notation node_id := (Z * Z)%type.
Fixpoint add_labels (i : Z) (rel ls : list Z) (labels : list (list node_id)) : list (list node_id) :=
  match rel, ls with
  | p :: rel, l :: ls =>
      add_labels i rel ls
        (mapi (fun q t => if q =? p then t ++ [(i, l)] else t) labels)
  | _, _ => labels
  end.
Definition assign_labels (i : Z) (rel ls : list Z) (labels : list (list node_id)) : res (list (list node_id)) :=
  if zlen ls =? zlen rel then Ok (add_labels i rel ls labels)
  else if zlen ls =? 1 then
    Ok (add_labels i rel (repeat (hd 0 ls) (length rel)) labels)
  else Err ValueError.
Fixpoint assign_all (i : Z) (rs : list (list Z * list Z)) (labels : list (list node_id)) : res (list (list node_id)) :=
  match rs with
  | [] => Ok labels
  | (rel, ls) :: t => do labels <- assign_labels i rel ls labels; assign_all (i + 1) t labels
  end.

(** cluster.py lines 136-187 fit.  [masks] is given by its columns and has
    [n_rows] rows, [bool_masks] tells whether its dtype is bool; [clusterer] maps
    the selected data and the sample weights to labels (each call uses a fresh
    clone, so the model is a function); [accepts_weights] tells whether the fit
    method of the clusterer has a sample_weight parameter.  check_array refuses
    arrays without rows or columns; the checks of the entries of X_tot and of the
    clusterer (lines 84-105) are not modelled. *)
Definition parallel_clustering {A W} (sched : list Z) (precomputed accepts_weights : bool)
  (clusterer : list (list A) -> option (list W) -> res (list Z))
  (sample_weight : option (list W)) (X_tot : list (list A)) (bool_masks : bool) (n_rows : Z)
  (masks : list (list bool)) : res (list (list node_id)) :=
  if (zlen X_tot =? 0) || (n_rows =? 0) || (zlen masks =? 0) then Err ValueError
  else if negb bool_masks then Err TypeError
  else if negb (zlen X_tot =? n_rows) then Err ValueError
  else
    let weights := if accepts_weights then sample_weight else None in
    do labels_single <- parallel_calls sched (zlen masks) (fun k =>
        do c <- py_get masks k;
        let rel := flatnonzero c in
        do Xs <- (if precomputed then select_block else select_rows) X_tot rel;
        do ws <- (match weights with
                  | Some w => do w' <- gather w rel; Ok (Some w')
                  | None => Ok None
                  end);
        do ls <- clusterer Xs ws;
        Ok (rel, ls));
    assign_all 0 labels_single (repeat [] (Z.to_nat n_rows)).

(** ** Nerve *)
Definition id_eqb (a b : node_id) : bool := (fst a =? fst b) && (snd a =? snd b).
(** labels_to_indices[node_id_pair].append(i) on an insertion-ordered dict *)
Fixpoint dict_append (d : list (node_id * list Z)) (k : node_id) (i : Z) : list (node_id * list Z) :=
  match d with
  | [] => [(k, [i])]
  | (k', l) :: t => if id_eqb k k' then (k', l ++ [i]) :: t else (k', l) :: dict_append t k i
  end.
(** nerve.py lines 126-131 *)
Fixpoint labels_to_indices_from (i : Z) (X : list (list node_id)) (d : list (node_id * list Z))
  : list (node_id * list Z) :=
  match X with
  | [] => d
  | sample :: t =>
      labels_to_indices_from (i + 1) t (fold_left (fun d k => dict_append d k i) sample d)
  end.
Definition labels_to_indices (X : list (list node_id)) := labels_to_indices_from 0 X [].

(** np.intersect1d: the sorted distinct common values *)
Fixpoint insert_unique (x : Z) (l : list Z) : list Z :=
  match l with
  | [] => [x]
  | y :: t => if x <? y then x :: l else if x =? y then l else y :: insert_unique x t
  end.
Definition intersect1d (a b : list Z) : list Z :=
  fold_right insert_unique [] (filter (fun x => existsb (Z.eqb x) b) a).

(** itertools.combinations(l, 2) *)
Fixpoint combinations2 {A} (l : list A) : list (A * A) :=
  match l with
  | [] => []
  | x :: t => map (fun y => (x, y)) t ++ combinations2 t
  end.

(** An edge: endpoints, weight and, when stored, the elements of the intersection
    (attribute "edge_elements"). *)
Record edge := Edge { e_src : Z; e_dst : Z; e_weight : Z; e_elems : option (list Z) }.
Notation gnode := (node_id * list Z)%type.

(** nerve.py lines 172-244 _generate_edge_data.  [contract = false]: lines 182-190
    _metadata_append; [contract = true]: lines 192-207
    _subset_check_metadata_append, which also updates the mapping. *)
Definition same_pullback (t : (Z * gnode) * (Z * gnode)) : bool :=
  fst (fst (snd (fst t))) =? fst (fst (snd (snd t))).
Definition metadata_append (min_inter : Z) (store : bool) (i j : Z) (inter : list Z)
  (es : list edge) : list edge :=
  if min_inter <=? zlen inter
  then es ++ [Edge i j (zlen inter) (if store then Some inter else None)] else es.
Definition edge_step (min_inter : Z) (store contract : bool) (st : list edge * list Z)
  (t : (Z * gnode) * (Z * gnode)) : list edge * list Z :=
  let '((i, (_, el1)), (j, (_, el2))) := t in
  let inter := intersect1d el1 el2 in
  if zlen inter =? 0 then st
  else if contract then
    if zlen inter =? zlen el2 then (fst st, set_at (snd st) j i)
    else if zlen inter =? zlen el1 then (fst st, set_at (snd st) i j)
    else (metadata_append min_inter store i j inter (fst st), snd st)
  else (metadata_append min_inter store i j inter (fst st), snd st).
Definition generate_edge_data (min_inter : Z) (store contract : bool) (nodes : list gnode)
  : list edge * list Z :=
  let node_tuples := combinations2 (mapi (fun i x => (i, x)) nodes) in
  fold_left (edge_step min_inter store contract)
    (filter (fun t => negb (same_pullback t)) node_tuples)
    ([], arange (zlen nodes)).

(** nerve.py lines 12-26 _limit_mapping.  [None] stands for a loop that does not
    end within the fuel. *)
Definition map_at (m : list Z) (i : Z) : Z := match Znth m i with Some x => x | None => i end.
Fixpoint limit_loop (fuel : nat) (m : list Z) (temp next : Z) : option Z :=
  if temp =? next then Some temp
  else match fuel with
       | O => None
       | S fuel => let temp := map_at m temp in
                   limit_loop fuel m temp (map_at m (map_at m temp))
       end.
Fixpoint all_some {A} (l : list (option A)) : option (list A) :=
  match l with
  | [] => Some []
  | Some x :: t => match all_some t with Some r => Some (x :: r) | None => None end
  | None :: _ => None
  end.
Definition limit_mapping (m : list Z) : option (list Z) :=
  all_some (mapi (fun i t => limit_loop (S (length m)) m i t) m).

(** The graph: vertices with their attributes and edges.  igraph:
    contract_vertices(mapping, combine_attrs="first") makes a graph with
    max(mapping)+1 vertices, vertex k taking the attributes of the first old
    vertex sent to k; the edges are kept with their attributes, their endpoints
    being mapped.  delete_vertices renumbers the vertices that stay and drops
    edges with a deleted endpoint. *)
Definition first_mapped (nodes : list gnode) (m : list Z) (k : Z) : option gnode :=
  match find (fun im => snd im =? k) (combine nodes m) with
  | Some (nd, _) => Some nd
  | None => None
  end.
Definition remap (f : Z -> Z) (e : edge) : edge :=
  Edge (f (e_src e)) (f (e_dst e)) (e_weight e) (e_elems e).
Definition zmax_list (l : list Z) : Z := fold_right Z.max (-1) l.
Definition contract_vertices (nodes : list gnode) (es : list edge) (m : list Z)
  : list (option gnode) * list edge :=
  (tabZ (zmax_list m + 1) (first_mapped nodes m), map (remap (map_at m)) es).
Definition kept_rank (keep : Z -> bool) (k : Z) : Z :=
  zlen (filter keep (arange k)).
Definition delete_vertices (vs : list (option gnode)) (es : list edge) (keep : Z -> bool)
  : list (option gnode) * list edge :=
  (flat_map (fun iv => if keep (fst iv) then [snd iv] else []) (mapi (fun i v => (i, v)) vs),
   map (remap (kept_rank keep))
     (filter (fun e => keep (e_src e) && keep (e_dst e)) es)).

(** nerve.py lines 91-170 fit_transform.  StopIteration is what next() raises on
    an empty zip; [Err RuntimeError] stands for non-termination, which is proved
    not to occur. *)
Definition nerve_fit_transform (min_inter : Z) (store contract : bool) (X : list (list node_id))
  : res (list (option gnode) * list edge) :=
  let nodes := labels_to_indices X in
  match nodes with
  | [] => Err StopIteration
  | _ =>
      let '(es, m) := generate_edge_data min_inter store contract nodes in
      if contract then
        match limit_mapping m with
        | None => Err RuntimeError
        | Some lm =>
            let '(vs, es) := contract_vertices nodes es lm in
            Ok (delete_vertices vs es (fun i => map_at lm i =? i))
        end
      else Ok (map Some nodes, es)
  end.

(** ** The Mapper pipeline (pipeline.py lines 403-424, make_mapper_pipeline): cover of
    the filter values, clustering of the pullback sets and nerve.  [filter_values]
    are the values of scaler and filter function, of one column; [clust_data] is
    the data after clustering_preprocessing. *)
Definition mapper {A} (sched : list Z) (p : cover_params) (st : cover_state)
  (filter_values : list Qc) (precomputed : bool)
  (clusterer : list (list A) -> option (list Z) -> res (list Z))
  (clust_data : list (list A)) (min_inter : Z) (store contract : bool)
  : res (list (option gnode) * list edge) :=
  do sm <- cover_fit_transform p st (D1 filter_values);
  do labels <- parallel_clustering sched precomputed false clusterer None clust_data true
                 (zlen filter_values) (snd sm);
  nerve_fit_transform min_inter store contract labels.
