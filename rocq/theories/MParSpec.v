(** Specification of the parameter interface of Mapper pipelines (C49). *)
From Coq Require Import String.
From Verif Require Import Np MParModel.
Open Scope Z_scope.
Open Scope string_scope.

(** The Mapper-level parameters and their names. *)
Inductive slot :=
| Scaler | FilterFunc | Cover | Preprocessing | Clusterer | NJobs | Backend
| MinIntersection | StoreEdges | ContractNodes | Memory | Verbose.
Definition name (s : slot) : string :=
  match s with
  | Scaler => "scaler" | FilterFunc => "filter_func" | Cover => "cover"
  | Preprocessing => "clustering_preprocessing"
  | Clusterer => "clusterer" | NJobs => "n_jobs" | Backend => "parallel_backend_prefer"
  | MinIntersection => "min_intersection" | StoreEdges => "store_edge_elements"
  | ContractNodes => "contract_nodes" | Memory => "memory" | Verbose => "verbose"
  end.
Definition is_nerve_slot (s : slot) : bool :=
  match s with MinIntersection | StoreEdges | ContractNodes => true | _ => false end.

(** A keyword: a parameter, or a parameter of a parameter: scaler, cover__n_intervals, ... *)
Definition keyword : Type := slot * option string.
Definition keyword_name (k : keyword) : string :=
  match snd k with None => name (fst k) | Some sub => name (fst k) ++ "__" ++ sub end.

(** The pipeline with the object [m s] for each parameter [s]; [inner] are the parameters of its
    parts which are not accessible at the Mapper level. *)
Record hidden := Hidden { h_memory : est; h_verbose : est; h_n_jobs : est; h_weights : est; h_union_verbose : est }.
Definition mapper (graph_step : bool) (inner : hidden) (m : slot -> est) : est :=
  Node (Some "steps")
    ([("memory", m Memory); ("verbose", m Verbose);
      ("pullback_cover", Node (Some "transformer_list")
        [("n_jobs", h_n_jobs inner); ("transformer_weights", h_weights inner); ("verbose", h_union_verbose inner);
         ("clustering_preprocessing", m Preprocessing);
         ("map_and_cover", Node (Some "steps")
            [("memory", h_memory inner); ("verbose", h_verbose inner);
             ("scaler", m Scaler); ("filter_func", m FilterFunc); ("cover", m Cover)])]);
      ("clustering", Node None
        [("clusterer", m Clusterer); ("n_jobs", m NJobs); ("parallel_backend_prefer", m Backend)])] ++
     (if graph_step then
       [("nerve", Node None
          [("min_intersection", m MinIntersection); ("store_edge_elements", m StoreEdges);
           ("contract_nodes", m ContractNodes)])] else [])).

(** What the keywords [kw] ask for the parameter [s]: a new object (the last one given)... *)
Fixpoint new_value (s : slot) (kw : list (keyword * est)) (e : est) : est :=
  match kw with
  | [] => e
  | ((s', None), v) :: t => if String.eqb (name s) (name s') then new_value s t v else new_value s t e
  | _ :: t => new_value s t e
  end.
(** ... and values for the parameters of that object. *)
Definition sub_values (s : slot) (kw : list (keyword * est)) : list (string * est) :=
  flat_map (fun p => match p with
                     | ((s', Some sub), v) => if String.eqb (name s) (name s') then [(sub, v)] else []
                     | ((_, None), _) => []
                     end) kw.
(** [e'] is [e] after [kw]. *)
Definition updated (s : slot) (kw : list (keyword * est)) (e e' : est) : Prop :=
  sk_set_params (new_value s kw e) (sub_values s kw) = Ok e'.

(** What get_params reports about an object held in the parameter [s]: the object and its own
    parameters. *)
Definition reported (s : slot) (e : est) : list (string * est) :=
  (name s, e) :: map (fun q => (name s ++ "__" ++ fst q, snd q)) (get_params e).
