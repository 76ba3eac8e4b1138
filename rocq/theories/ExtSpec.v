(** What the documentation of the GUDHI interfaces (gtda/externals/python) promises,
    in terms of the bound libraries and of the calls made so far, without the
    attributes of the Python objects. *)
From Coq Require Import String.
From Verif Require Import Np Fl ExtTypes.
Open Scope Z_scope.

(** The arguments of the most recent call of persistence in a history. *)
Fixpoint latest_persistence (h : list cub_call) : option (Z * fl) :=
  match h with
  | [] => None
  | c :: h => match latest_persistence h with
              | Some r => Some r
              | None => match c with CPersistence f m => Some (f, m) | _ => None end
              end
  end.

(** The computation the answers of a cubical complex [x] refer to after a history:
    that of the most recent call of persistence, run on a new cohomology object. *)
Definition current_computation {D C P} (L : cubical_lib D C P) (x : C) (h : list cub_call)
  : option P :=
  match l_cohomology L x true, latest_persistence h with
  | Ok q, Some (f, m) => Some (fst (l_compute L q f m))
  | _, _ => None
  end.

(** A two-dimensional array holding one interval per row. *)
Definition rows_of (l : list (fl * fl)) (a : ndarray) : Prop :=
  nd_shape a = [zlen l; 2] /\ nd_entries a = concat (map (fun p => [fst p; snd p]) l).

(** What a method answers when the computation its answers refer to is [q]. *)
Definition computed_answer {D C P} (L : cubical_lib D C P) (q : P) (c : cub_call) (a : answer) : Prop :=
  match c with
  | CIsPersistenceDefined => a = ABool true
  | CBetti => a = AInts (l_betti L q)
  | CPersistentBetti u v => a = AInts (l_persistent_betti L q u v)
  | CIntervals d =>
      exists r, a = AArray r /\ nd_entries r = concat (map (fun p => [fst p; snd p]) (l_intervals L q d)) /\
        (l_intervals L q d <> [] -> nd_shape r = [zlen (l_intervals L q d); 2])
  | _ => True
  end.

(** Vertices of a simplex passed as an iterable, or as a sequence. *)
Definition iterated (s : simplex_arg) : option (list Z) :=
  match s with Sequence l => Some l | Iterable l => Some l | NotIterable => None end.
Definition sequenced (s : simplex_arg) : option (list Z) :=
  match s with Sequence l => Some l | Iterable _ => None | NotIterable => None end.

(** The methods of SimplexTree that do not concern persistence: the bound
    function each calls on the tree [t], and the value it returns. *)
Definition returning {T A} (f : A -> answer) (x : T * res A) : T * res answer :=
  (fst x, match snd x with Ok a => Ok (f a) | Err e => Err e end).
Definition returning_none {T} (x : T * option exn) : T * res answer :=
  (fst x, match snd x with None => Ok ANone | Some e => Err e end).
Definition given {T} (t : T) (s : option (list Z)) (f : list Z -> T * res answer) : T * res answer :=
  match s with Some l => f l | None => (t, Err TypeError) end.
Definition documented {V T P} (L : tree_lib V T P) (c : tree_call V) (t : T)
  : option (T * res answer) :=
  match c with
  | Filtration s => Some (given t (sequenced s) (fun l => returning AFloat (t_float L l t)))
  | AssignFiltration s x =>
      Some (given t (sequenced s) (fun l => returning_none (t_void L (AssignSimplexFiltration l x) t)))
  | InitFiltration => Some (returning_none (t_void L InitializeFiltration t))
  | NVertices => Some (returning AInt (t_int L NumVertices t))
  | NSimplices => Some (returning AInt (t_int L NumSimplices t))
  | Dimension => Some (returning AInt (t_int L DimensionOf t))
  | UpperBound => Some (returning AInt (t_int L UpperBoundDimension t))
  | SetDim d => Some (returning_none (t_void L (SetDimension d) t))
  | Find s => Some (given t (iterated s) (fun l => returning ABool (t_bool L (FindSimplex l) t)))
  | Insert s x =>
      Some (given t (iterated s) (fun l => returning ABool (t_bool L (InsertSimplexAndSubfaces l x) t)))
  | GetFiltr => Some (returning ASimplices (t_simplices L GetFiltration t))
  | Skeleton d => Some (returning ASimplices (t_simplices L (GetSkeleton d) t))
  | Star s => Some (given t (iterated s) (fun l => returning ASimplices (t_simplices L (GetStar l) t)))
  | Cofaces s k =>
      Some (given t (iterated s) (fun l => returning ASimplices (t_simplices L (GetCofaces l k) t)))
  | RemoveMaximal s =>
      Some (given t (sequenced s) (fun l => returning_none (t_void L (RemoveMaximalSimplex l) t)))
  | Prune x => Some (returning ABool (t_bool L (PruneAboveFiltration x) t))
  | Expand d => Some (returning_none (t_void L (Expansion d) t))
  | NonDecreasing => Some (returning ABool (t_bool L MakeFiltrationNonDecreasing t))
  | IsDefined => Some (t, Ok (ABool true))
  | IsPersistenceDefined | Persistence _ _ _ | Betti | PersistentBetti _ _ | Intervals _ | Pairs
  | WriteDiagram _ => None
  end.

(** Calls of persistence, and the questions about its outcome. *)
Definition is_persistence {V} (c : tree_call V) : bool :=
  match c with Persistence _ _ _ => true | _ => false end.
Definition is_question {V} (c : tree_call V) : bool :=
  match c with
  | IsPersistenceDefined | Betti | PersistentBetti _ _ | Intervals _ | Pairs | WriteDiagram _ => true
  | _ => false
  end.
