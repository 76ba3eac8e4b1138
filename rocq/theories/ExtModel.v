(** Model of gtda/externals/python: the Python objects wrapped around the compiled
    GUDHI modules, as state machines over the libraries of ExtTypes.v.  Simplices
    have integer vertices. *)
From Coq Require Import String.
From Verif Require Import Np Fl ExtTypes.
Open Scope Z_scope.

(** [np.array] of a list of pairs, and of [[[]]]. *)
Definition np_array_of_pairs (l : list (fl * fl)) : ndarray :=
  match l with
  | [] => NdArray [0] []
  | _ => NdArray [zlen l; 2] (concat (map (fun p => [fst p; snd p]) l))
  end.
Definition np_array_of_one_empty_row : ndarray := NdArray [1; 0] [].

(** ** CubicalComplex and PeriodicCubicalComplex *)

(** The two attributes; [thisptr] is set by the constructor and removed by
    [__del__] only. *)
Record cub (C P : Type) := Cub { thisptr : option C; pcohptr : attr P }.
Arguments Cub {C P}.
Arguments thisptr {C P}.
Arguments pcohptr {C P}.

Definition construction_message : string :=
  "CubicalComplex can be constructed from dimensions and top_dimensional_cells or from a Perseus-style file name.".

(** cubical_complex_interface.py lines 19-48 CubicalComplex.__init__; [isfile] is
    os.path.isfile.  An exception of the library leaves no object. *)
Definition cubical_init {C P} (L : cubical_lib (list Z * list fl) C P) (isfile : string -> bool)
  (dimensions : option (list Z)) (top_dimensional_cells : option (list fl)) (perseus_file : string)
  : list event * res (cub C P) :=
  match dimensions, top_dimensional_cells, (perseus_file =? "")%string with
  | Some d, Some c, true =>
      ([], do x <- l_cells L (d, c); Ok (Cub (Some x) Null))
  | None, None, false =>
      if isfile perseus_file
      then ([], do x <- l_perseus L perseus_file; Ok (Cub (Some x) Null))
      else ([Printed ("file " ++ perseus_file ++ " not found.")], Ok (Cub None Null))
  | _, _, _ => ([Printed construction_message], Ok (Cub None Null))
  end.

(** periodic_cubical_complex_interface.py lines 15-48 *)
Definition periodic_init {C P} (L : cubical_lib (list Z * list fl * list bool) C P)
  (isfile : string -> bool) (dimensions : option (list Z))
  (top_dimensional_cells : option (list fl)) (periodic_dimensions : option (list bool))
  (perseus_file : string) : list event * res (cub C P) :=
  match dimensions, top_dimensional_cells, periodic_dimensions, (perseus_file =? "")%string with
  | Some d, Some c, Some p, true =>
      ([], do x <- l_cells L (d, c, p); Ok (Cub (Some x) Null))
  | None, None, None, false =>
      if isfile perseus_file
      then ([], do x <- l_perseus L perseus_file; Ok (Cub (Some x) Null))
      else ([Printed ("file " ++ perseus_file ++ " not found.")], Ok (Cub None Null))
  | _, _, _, _ => ([Printed construction_message], Ok (Cub None Null))
  end.

(** lines 56-61 and 63-68 *)
Definition cub_is_defined {C P} (o : cub C P) : bool :=
  match thisptr o with Some _ => true | None => false end.
Definition cub_is_persistence_defined {C P} (o : cub C P) : res bool :=
  match pcohptr o with Deleted => Err AttributeError | Null => Ok false | Ptr _ => Ok true end.

(** lines 82-106 persistence: [del self.pcohptr] removes the attribute, the
    constructor of the cohomology object may raise. *)
Definition cub_persistence {D C P} (L : cubical_lib D C P) (o : cub C P) (field : Z)
  (min_persistence : fl) : cub C P * res pairs :=
  match pcohptr o with
  | Deleted => (o, Err AttributeError)
  | p =>
      let o := Cub (thisptr o) (match p with Ptr _ => Deleted | _ => p end) in
      let made := match thisptr o with
                  | Some c => do q <- l_cohomology L c true; Ok (Cub (thisptr o) (Ptr q))
                  | None => Ok o
                  end in
      match made with
      | Err e => (o, Err e)
      | Ok o =>
          match pcohptr o with
          | Deleted => (o, Err AttributeError)
          | Null => (o, Ok [])
          | Ptr q =>
              let '(q, raised) := l_compute L q field min_persistence in
              (Cub (thisptr o) (Ptr q),
               match raised with Some e => Err e | None => Ok (l_get L q) end)
          end
      end
  end.

Definition not_launched : string :=
  "intervals_in_dim function requires persistence function to be launched first.".

(** One call of a method: the object afterwards, what is printed, the result.
    Lines 70-74 num_simplices, 76-80 dimension, 108-119 betti_numbers, 121-139
    persistent_betti_numbers, 141-157 persistence_intervals_in_dimension;
    [empty] is the array returned before any computation, which is
    [np.array([[]])] in one class and [np.array([])] in the other. *)
Definition cub_step {D C P} (empty : ndarray) (L : cubical_lib D C P) (o : cub C P) (c : cub_call)
  : cub C P * list event * res answer :=
  match c with
  | CIsDefined => (o, [], Ok (ABool (cub_is_defined o)))
  | CIsPersistenceDefined => (o, [], do b <- cub_is_persistence_defined o; Ok (ABool b))
  | CNumSimplices =>
      (o, [], match thisptr o with Some x => Ok (AInt (l_num_simplices L x)) | None => Err AttributeError end)
  | CDimension =>
      (o, [], match thisptr o with Some x => Ok (AInt (l_dimension L x)) | None => Err AttributeError end)
  | CPersistence f m =>
      let '(o, r) := cub_persistence L o f m in (o, [], do d <- r; Ok (ADiagram d))
  | CBetti =>
      (o, [], match pcohptr o with
              | Deleted => Err AttributeError
              | Null => Ok (AInts [])
              | Ptr q => Ok (AInts (l_betti L q))
              end)
  | CPersistentBetti a b =>
      (o, [], match pcohptr o with
              | Deleted => Err AttributeError
              | Null => Ok (AInts [])
              | Ptr q => Ok (AInts (l_persistent_betti L q a b))
              end)
  | CIntervals d =>
      match pcohptr o with
      | Deleted => (o, [], Err AttributeError)
      | Null => (o, [Printed not_launched], Ok (AArray empty))
      | Ptr q => (o, [], Ok (AArray (np_array_of_pairs (l_intervals L q d))))
      end
  end.
Definition cubical_step {C P} (L : cubical_lib (list Z * list fl) C P) :=
  cub_step np_array_of_one_empty_row L.
Definition periodic_step {C P} (L : cubical_lib (list Z * list fl * list bool) C P) :=
  cub_step (np_array_of_pairs []) L.

(** cubical_complex_interface.py lines 50-54 [__del__] (the same in the other
    class) *)
Definition cub_del {C P} (o : cub C P) : res unit :=
  match pcohptr o with Deleted => Err AttributeError | _ => Ok tt end.

(** ** SimplexTree *)

(** simplex_tree_interface.py lines 18-21 *)
Record stree (T P : Type) := STree { st_tree : T; st_pcoh : attr P }.
Arguments STree {T P}.
Arguments st_tree {T P}.
Arguments st_pcoh {T P}.
Definition simplex_tree_init {V T P} (L : tree_lib V T P) : stree T P := STree (t_empty L) Null.

(** pybind11's conversion to std::vector<int>: sequences only. *)
Definition to_vector (s : simplex_arg) : res (list Z) :=
  match s with Sequence l => Ok l | _ => Err TypeError end.
(** [[i for i in simplex]] *)
Definition as_list (s : simplex_arg) : res simplex_arg :=
  match s with Sequence l | Iterable l => Ok (Sequence l) | NotIterable => Err TypeError end.

(** A call of a bound function whose arguments were converted. *)
Definition on_tree {T P A} (o : stree T P) (args : res (T -> T * res A)) : stree T P * res A :=
  match args with
  | Err e => (o, Err e)
  | Ok f => let '(t, r) := f (st_tree o) in (STree t (st_pcoh o), r)
  end.
Definition t_none {V T P} (L : tree_lib V T P) (c : c_void) (t : T) : T * res unit :=
  let '(t, e) := t_void L c t in (t, match e with Some e => Err e | None => Ok tt end).

(** Lines 153-210: the loops copying the simplices. *)
Definition copy_simplices (l : list (list Z * fl)) : list (list Z * fl) :=
  fold_left (fun ct fc => (ct ++ [(map (fun vertex => vertex) (fst fc), snd fc)])%list) l [].

(** Lines 291-318 *)
Definition tree_persistence {V T P} (L : tree_lib V T P) (o : stree T P) (field : Z)
  (min_persistence : fl) (persistence_dim_max : V) : stree T P * res pairs :=
  match st_pcoh o with
  | Deleted => (o, Err AttributeError)
  | p =>
      let o := STree (st_tree o) (match p with Ptr _ => Deleted | _ => p end) in
      match p_new L (st_tree o) persistence_dim_max with
      | Err e => (o, Err e)
      | Ok q =>
          let '(t, q, raised) := p_compute L (st_tree o) q field min_persistence in
          (STree t (Ptr q), match raised with Some e => Err e | None => Ok (p_get L t q) end)
      end
  end.

(** Lines 320-408: the queries about the last computation. *)
Definition requires (name : string) : event :=
  Printed ("`" ++ name ++ "` requires persistence function to be launched first.").
Definition query {T P} (o : stree T P) (message : event) (empty : answer) (f : T -> P -> answer)
  : stree T P * list event * res answer :=
  match st_pcoh o with
  | Deleted => (o, [], Err AttributeError)
  | Null => (o, [message], Ok empty)
  | Ptr q => (o, [], Ok (f (st_tree o) q))
  end.

Definition silent {O A} (f : A -> answer) (x : O * res A) : O * list event * res answer :=
  (fst x, [], do a <- snd x; Ok (f a)).

(** One call of a method; lines 29-39, 41-49 filtration, 51-59 assign_filtration,
    61-73 initialize_filtration, 75-80, 82-87, 89-101, 103-108, 110-123
    set_dimension, 125-133 find, 135-151 insert, 153-163 get_filtration, 165-177
    get_skeleton, 179-192 get_star, 194-210 get_cofaces, 212-229
    remove_maximal_simplex, 231-256 prune_above_filtration, 258-272 expansion,
    274-289 make_filtration_non_decreasing, 291-318 persistence, 320-408. *)
Definition tree_step {V T P} (L : tree_lib V T P) (o : stree T P) (c : tree_call V)
  : stree T P * list event * res answer :=
  match c with
  | IsDefined => (o, [], Ok (ABool true))
  | IsPersistenceDefined =>
      (o, [], match st_pcoh o with
              | Deleted => Err AttributeError | Null => Ok (ABool false) | Ptr _ => Ok (ABool true)
              end)
  | Filtration s =>
      silent AFloat (on_tree o (do v <- to_vector s; Ok (t_float L v)))
  | AssignFiltration s x =>
      silent (fun _ => ANone) (on_tree o (do v <- to_vector s; Ok (t_none L (AssignSimplexFiltration v x))))
  | InitFiltration => silent (fun _ => ANone) (on_tree o (Ok (t_none L InitializeFiltration)))
  | NVertices => silent AInt (on_tree o (Ok (t_int L NumVertices)))
  | NSimplices => silent AInt (on_tree o (Ok (t_int L NumSimplices)))
  | Dimension => silent AInt (on_tree o (Ok (t_int L DimensionOf)))
  | UpperBound => silent AInt (on_tree o (Ok (t_int L UpperBoundDimension)))
  | SetDim d => silent (fun _ => ANone) (on_tree o (Ok (t_none L (SetDimension d))))
  | Find s =>
      silent ABool (on_tree o (do cs <- as_list s; do v <- to_vector cs; Ok (t_bool L (FindSimplex v))))
  | Insert s x =>
      silent ABool (on_tree o (do cs <- as_list s; do v <- to_vector cs;
                               Ok (t_bool L (InsertSimplexAndSubfaces v x))))
  | GetFiltr =>
      silent (fun l => ASimplices (copy_simplices l)) (on_tree o (Ok (t_simplices L GetFiltration)))
  | Skeleton d =>
      silent (fun l => ASimplices (copy_simplices l)) (on_tree o (Ok (t_simplices L (GetSkeleton d))))
  | Star s =>
      silent (fun l => ASimplices (copy_simplices l))
        (on_tree o (do cs <- as_list s; do v <- to_vector cs; Ok (t_simplices L (GetStar v))))
  | Cofaces s k =>
      silent (fun l => ASimplices (copy_simplices l))
        (on_tree o (do cs <- as_list s; do v <- to_vector cs; Ok (t_simplices L (GetCofaces v k))))
  | RemoveMaximal s =>
      silent (fun _ => ANone) (on_tree o (do v <- to_vector s; Ok (t_none L (RemoveMaximalSimplex v))))
  | Prune x => silent ABool (on_tree o (Ok (t_bool L (PruneAboveFiltration x))))
  | Expand d => silent (fun _ => ANone) (on_tree o (Ok (t_none L (Expansion d))))
  | NonDecreasing => silent ABool (on_tree o (Ok (t_bool L MakeFiltrationNonDecreasing)))
  | Persistence f m v => silent ADiagram (tree_persistence L o f m v)
  | Betti => query o (requires "betti_numbers") (AInts []) (fun t q => AInts (p_betti L t q))
  | PersistentBetti a b =>
      query o (requires "persistent_betti_numbers") (AInts [])
        (fun t q => AInts (p_persistent_betti L t q a b))
  | Intervals d =>
      query o (requires "intervals_in_dim") (AArray (np_array_of_pairs []))
        (fun t q => AArray (np_array_of_pairs (p_intervals L t q d)))
  | Pairs =>
      query o (requires "persistence_pairs") (ASimplexPairs []) (fun t q => ASimplexPairs (p_pairs L t q))
  | WriteDiagram file =>
      match st_pcoh o with
      | Deleted => (o, [], Err AttributeError)
      | Null => (o, [requires "intervals_in_dim"], Ok ANone)
      | Ptr q =>
          if negb (file =? "")%string
          then (o, [Wrote file (p_diagram_file L (st_tree o) q)], Ok ANone)
          else (o, [Printed "`persistence_file` must be specified"], Ok ANone)
      end
  end.

(** Lines 23-27 [__del__] *)
Definition tree_del {T P} (o : stree T P) : res unit :=
  match st_pcoh o with Deleted => Err AttributeError | _ => Ok tt end.

(** A sequence of calls: the events and results in order, and the object at the
    end. *)
Fixpoint run {O K} (step : O -> K -> O * list event * res answer) (o : O) (h : list K)
  : O * list (list event * res answer) :=
  match h with
  | [] => (o, [])
  | c :: h =>
      let '(o, ev, r) := step o c in
      let '(o, rest) := run step o h in (o, (ev, r) :: rest)
  end.

(** ** The complexes that create simplex trees *)

(** gtda_sparse_rips_complex, gtda_cech_complex, gtda_witness_complex: [X] are
    points or distance matrices, [R] the library's objects. *)
Record rips_lib (X T R : Type) := RipsLib {
  r_new : R;
  r_init_points : R -> X -> fl -> res R;
  r_init_matrix : R -> X -> fl -> res R;
  r_init_points_sparse : R -> X -> fl -> fl -> res R;
  r_init_matrix_sparse : R -> X -> fl -> fl -> res R;
  r_create : R -> T -> Z -> res T }.
Arguments r_new {X T R}.
Arguments r_init_points {X T R}.
Arguments r_init_matrix {X T R}.
Arguments r_init_points_sparse {X T R}.
Arguments r_init_matrix_sparse {X T R}.
Arguments r_create {X T R}.

(** rips_complex_interface.py lines 13-33; [no_points] is the empty list *)
Definition rips_init {X T R} (L : rips_lib X T R) (no_points : X) (points distance_matrix : option X)
  (max_edge_length : fl) : res R :=
  let thisref := r_new L in
  match distance_matrix with
  | Some m => r_init_matrix L thisref m max_edge_length
  | None =>
      let points := match points with None => no_points | Some p => p end in
      r_init_points L thisref points max_edge_length
  end.
(** lines 61-88 *)
Definition sparse_rips_init {X T R} (L : rips_lib X T R) (no_points : X)
  (points distance_matrix : option X) (max_edge_length sparse : fl) : res R :=
  let thisref := r_new L in
  match distance_matrix with
  | Some m => r_init_matrix_sparse L thisref m max_edge_length sparse
  | None =>
      let points := match points with None => no_points | Some p => p end in
      r_init_points_sparse L thisref points max_edge_length sparse
  end.
(** lines 35-45, 90-100 and cech_complex_interface.py lines 24-34: a new
    SimplexTree is filled by the library.  [create] is the bound function of the
    complex. *)
Definition create_simplex_tree {V T P} (L : tree_lib V T P) (create : T -> Z -> res T)
  (max_dimension : Z) : res (stree T P) :=
  let simplex_tree := simplex_tree_init L in
  do t <- create (st_tree simplex_tree) max_dimension;
  Ok (STree t (st_pcoh simplex_tree)).

(** witness_complex_interface.py lines 12-24, strong_witness_complex_interface.py
    lines 12-24; [new] is the constructor of the bound class *)
Definition witness_init {Tab W} (new : Tab -> res W) (nearest_landmark_table : option Tab)
  : res (option W) :=
  match nearest_landmark_table with
  | None => Ok None
  | Some t => do w <- new t; Ok (Some w)
  end.
(** lines 37-53 in both files.  The two overloads of the bound function; the
    dimension is a std::size_t, so that a negative number is a TypeError of
    pybind11. *)
Definition witness_create {V T P W} (L : tree_lib V T P) (unlimited : W -> T -> fl -> res T)
  (limited : W -> T -> fl -> Z -> res T) (thisptr : option W) (max_alpha_square : fl)
  (limit_dimension : Z) : res (stree T P) :=
  let stree := simplex_tree_init L in
  do t <- (if negb (limit_dimension =? -1)
           then match thisptr with
                | None => Err AttributeError
                | Some w => if limit_dimension <? 0 then Err TypeError
                            else limited w (st_tree stree) max_alpha_square limit_dimension
                end
           else match thisptr with
                | None => Err AttributeError
                | Some w => unlimited w (st_tree stree) max_alpha_square
                end);
  Ok (STree t (st_pcoh stree)).

(** ** The callers in gtda/homology *)

(** simplicial.py lines 855-868 SparseRipsPersistence._gudhi_diagram on the matrix
    of pairwise distances; [no] is the default persistence_dim_max=False *)
Definition sparse_rips_diagram {V X T P R} (L : tree_lib V T P) (LR : rips_lib X T R) (no : V)
  (no_points : X) (coeff : Z) (max_edge_length epsilon : fl) (max_homology_dimension : Z) (Xd : X)
  : res pairs :=
  do c <- sparse_rips_init LR no_points None (Some Xd) max_edge_length epsilon;
  do st <- create_simplex_tree L (r_create LR c) (max_homology_dimension + 1);
  snd (tree_persistence L st coeff (Fin 0) no).
(** simplicial.py lines 1348-1356 EuclideanCechPersistence._gudhi_diagram;
    [cech] is the constructor of the bound class (cech_complex_interface.py line
    18), [cech_create] its create_simplex_tree *)
Definition cech_diagram {V X T P R} (L : tree_lib V T P) (cech : X -> fl -> res R)
  (cech_create : R -> T -> Z -> res T) (no : V) (coeff : Z) (max_edge_length : fl)
  (max_homology_dimension : Z) (Xd : X) : res pairs :=
  do c <- cech Xd max_edge_length;
  do st <- create_simplex_tree L (cech_create c) (max_homology_dimension + 1);
  snd (tree_persistence L st coeff (Fin 0) no).
(** cubical.py lines 121-131 CubicalPersistence._gudhi_diagram: CubicalComplex, or
    PeriodicCubicalComplex when some axis is periodic *)
Definition cubical_diagram {C P C' P'} (L : cubical_lib (list Z * list fl) C P)
  (L' : cubical_lib (list Z * list fl * list bool) C' P') (isfile : string -> bool)
  (coeff : Z) (shape : list Z) (cells : list fl) (periodic : option (list bool)) : res pairs :=
  match periodic with
  | None =>
      do o <- snd (cubical_init L isfile (Some shape) (Some cells) "");
      snd (cub_persistence L o coeff (Fin 0))
  | Some p =>
      do o <- snd (periodic_init L' isfile (Some shape) (Some cells) (Some p) "");
      snd (cub_persistence L' o coeff (Fin 0))
  end.
