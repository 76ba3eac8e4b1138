(** The compiled GUDHI modules used by gtda/externals/python, as arbitrary
    libraries: one field per bound function (gtda/externals/bindings/*.cpp), and
    the values exchanged with them.  Nothing is assumed about their results. *)
From Coq Require Import String.
From Verif Require Import Np Fl.
Open Scope Z_scope.

(** What a call does besides its result: text printed on the standard output, or
    a file written. *)
Inductive event := Printed (text : string) | Wrote (file content : string).

(** A Python attribute that [del] can remove. *)
Inductive attr (A : Type) := Deleted | Null | Ptr (a : A).
Arguments Deleted {A}.
Arguments Null {A}.
Arguments Ptr {A} _.

(** numpy arrays: shape and entries in row-major order. *)
Record ndarray := NdArray { nd_shape : list Z; nd_entries : list fl }.

(** A persistence diagram as GUDHI returns it: (dimension, (birth, death)). *)
Definition pairs := list (Z * (fl * fl)).

(** gtda_cubical_complex / gtda_persistent_cohomology and
    gtda_periodic_cubical_complex; [D] are the arguments of the constructor taking
    dimensions and cells, [C] the complexes, [P] the cohomology objects.  A
    complex is not changed by a computation.  [l_compute] changes the cohomology
    object in place, also when it raises. *)
Record cubical_lib (D C P : Type) := CubicalLib {
  l_cells : D -> res C;
  l_perseus : string -> res C;
  l_num_simplices : C -> Z;
  l_dimension : C -> Z;
  l_cohomology : C -> bool -> res P;
  l_compute : P -> Z -> fl -> P * option exn;
  l_get : P -> pairs;
  l_betti : P -> list Z;
  l_persistent_betti : P -> fl -> fl -> list Z;
  l_intervals : P -> Z -> list (fl * fl) }.
Arguments CubicalLib {D C P}.
Arguments l_cells {D C P}.
Arguments l_perseus {D C P}.
Arguments l_num_simplices {D C P}.
Arguments l_dimension {D C P}.
Arguments l_cohomology {D C P}.
Arguments l_compute {D C P}.
Arguments l_get {D C P}.
Arguments l_betti {D C P}.
Arguments l_persistent_betti {D C P}.
Arguments l_intervals {D C P}.

(** gtda_simplex_tree.  The functions are grouped by the type of their result;
    all may change the tree (and its caches). *)
Inductive c_void :=
  | AssignSimplexFiltration (s : list Z) (x : fl) | InitializeFiltration
  | SetDimension (d : Z) | RemoveMaximalSimplex (s : list Z) | Expansion (d : Z).
Inductive c_bool :=
  | FindSimplex (s : list Z) | InsertSimplexAndSubfaces (s : list Z) (x : fl)
  | PruneAboveFiltration (x : fl) | MakeFiltrationNonDecreasing.
Inductive c_int := NumVertices | NumSimplices | DimensionOf | UpperBoundDimension.
Inductive c_simplices :=
  | GetFiltration | GetSkeleton (d : Z) | GetStar (s : list Z) | GetCofaces (s : list Z) (codim : Z).

(** [V] are the Python values accepted for persistence_dim_max. *)
Record tree_lib (V T P : Type) := TreeLib {
  t_empty : T;
  t_void : c_void -> T -> T * option exn;
  t_bool : c_bool -> T -> T * res bool;
  t_int : c_int -> T -> T * res Z;
  t_float : list Z -> T -> T * res fl;
  t_simplices : c_simplices -> T -> T * res (list (list Z * fl));
  p_new : T -> V -> res P;
  p_compute : T -> P -> Z -> fl -> T * P * option exn;
  p_get : T -> P -> pairs;
  p_betti : T -> P -> list Z;
  p_persistent_betti : T -> P -> fl -> fl -> list Z;
  p_intervals : T -> P -> Z -> list (fl * fl);
  p_pairs : T -> P -> list (list Z * list Z);
  p_diagram_file : T -> P -> string }.
Arguments TreeLib {V T P}.
Arguments t_empty {V T P}.
Arguments t_void {V T P}.
Arguments t_bool {V T P}.
Arguments t_int {V T P}.
Arguments t_float {V T P}.
Arguments t_simplices {V T P}.
Arguments p_new {V T P}.
Arguments p_compute {V T P}.
Arguments p_get {V T P}.
Arguments p_betti {V T P}.
Arguments p_persistent_betti {V T P}.
Arguments p_intervals {V T P}.
Arguments p_pairs {V T P}.
Arguments p_diagram_file {V T P}.

(** A simplex passed by the caller: a sequence of vertices (list, tuple, array),
    another iterable (set, generator, dict), or something else. *)
Inductive simplex_arg := Sequence (l : list Z) | Iterable (l : list Z) | NotIterable.

(** The methods of CubicalComplex and PeriodicCubicalComplex. *)
Inductive cub_call :=
  | CIsDefined | CIsPersistenceDefined | CNumSimplices | CDimension
  | CPersistence (homology_coeff_field : Z) (min_persistence : fl)
  | CBetti | CPersistentBetti (from_value to_value : fl) | CIntervals (dimension : Z).
(** The methods of SimplexTree. *)
Inductive tree_call (V : Type) :=
  | IsDefined | IsPersistenceDefined
  | Filtration (simplex : simplex_arg) | AssignFiltration (simplex : simplex_arg) (x : fl)
  | InitFiltration | NVertices | NSimplices | Dimension | UpperBound | SetDim (d : Z)
  | Find (simplex : simplex_arg) | Insert (simplex : simplex_arg) (x : fl)
  | GetFiltr | Skeleton (d : Z) | Star (simplex : simplex_arg)
  | Cofaces (simplex : simplex_arg) (codim : Z) | RemoveMaximal (simplex : simplex_arg)
  | Prune (x : fl) | Expand (d : Z) | NonDecreasing
  | Persistence (field : Z) (min_persistence : fl) (persistence_dim_max : V)
  | Betti | PersistentBetti (from_value to_value : fl) | Intervals (dimension : Z)
  | Pairs | WriteDiagram (file : string).
Arguments IsDefined {V}.
Arguments IsPersistenceDefined {V}.
Arguments Filtration {V}.
Arguments AssignFiltration {V}.
Arguments InitFiltration {V}.
Arguments NVertices {V}.
Arguments NSimplices {V}.
Arguments Dimension {V}.
Arguments UpperBound {V}.
Arguments SetDim {V}.
Arguments Find {V}.
Arguments Insert {V}.
Arguments GetFiltr {V}.
Arguments Skeleton {V}.
Arguments Star {V}.
Arguments Cofaces {V}.
Arguments RemoveMaximal {V}.
Arguments Prune {V}.
Arguments Expand {V}.
Arguments NonDecreasing {V}.
Arguments Persistence {V}.
Arguments Betti {V}.
Arguments PersistentBetti {V}.
Arguments Intervals {V}.
Arguments Pairs {V}.
Arguments WriteDiagram {V}.

(** The values the methods return. *)
Inductive answer :=
  | ANone | ABool (b : bool) | AInt (n : Z) | AFloat (x : fl) | AInts (l : list Z)
  | ADiagram (l : pairs) | AArray (a : ndarray) | ASimplices (l : list (list Z * fl))
  | ASimplexPairs (l : list (list Z * list Z)).
