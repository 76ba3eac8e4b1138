(** Model of gtda/metaestimators/collection_transformer.py (CollectionTransformer) and
    gtda/mapper/utils/_list_feature_union.py (ListFeatureUnion, with the parts of scikit-learn's
    FeatureUnion it uses). *)
From Coq Require Import String.
From Verif Require Import Np Fl ValidModel MParModel PipeModel.
Open Scope Z_scope.

(** ** CollectionTransformer *)
Section Collection.
(** Parameters, attributes set by fitting, and outputs of the wrapped transformer. *)
Context {P S B : Type}.
Record obj := Obj { o_params : P; o_state : S }.
(** The attributes of a newly constructed object; its fit_transform, which may also change the
    object; and which methods it has. *)
Variable fresh : P -> S.
Variable run : obj -> arr -> res B * obj.
Variables has_get_params has_fit_transform : bool.
(** x.shape of an output; None if it has no such attribute *)
Variable shape_of : B -> option (list Z).

(** scikit-learn (external): clone *)
Definition clone_obj (o : obj) : obj := Obj (o_params o) (fresh (o_params o)).

(** Parallel execution (joblib, external) of the tasks of lines 157-160, by threads sharing memory;
    [heap] holds all estimator objects, the transformer at address 0; [addr] the addresses of the
    objects on which the dispatched tasks run; [results] what the tasks gave so far. *)
Record cfg := Cfg { heap : list obj; addr : list Z; results : list (option (res B)) }.
(** Tasks are taken from the generator one at a time, and each runs to its end in one event. *)
Inductive event := Dispatch | Run (i : Z).
Definition step (items : list arr) (c : cfg) (e : event) : option cfg :=
  match e with
  | Dispatch =>
      if zlen (addr c) <? zlen items then
        match Znth (heap c) 0 with
        | Some t => Some (Cfg (heap c ++ [clone_obj t]) (addr c ++ [zlen (heap c)]) (results c))
        | None => None
        end
      else None
  | Run i =>
      match Znth (addr c) i, Znth (results c) i, Znth items i with
      | Some a, Some None, Some x =>
          match Znth (heap c) a with
          | Some o => let (r, o') := run o x in
                      Some (Cfg (set_at (heap c) a o') (addr c) (set_at (results c) i (Some r)))
          | None => None
          end
      | _, _, _ => None
      end
  end.
Fixpoint exec (items : list arr) (c : cfg) (s : list event) : option cfg :=
  match s with
  | [] => Some c
  | e :: s => match step items c e with Some c' => exec items c' s | None => None end
  end.
Definition init (t : obj) (items : list arr) : cfg := Cfg [t] [] (map (fun _ => None) items).
(** Parallel returns the list of results in the order of the tasks, or raises the exception of a
    task, in some schedule.  In processes the tasks run on copies, which is the same with fewer
    effects on the heap. *)
Definition parallel_returns (t : obj) (items : list arr) (ys : list B) (t' : obj) : Prop :=
  exists s c, exec items (init t items) s = Some c /\ results c = map (fun y => Some (Ok y)) ys /\ Znth (heap c) 0 = Some t'.
Definition parallel_raises (t : obj) (items : list arr) (e : exn) (t' : obj) : Prop :=
  exists s c i, exec items (init t items) s = Some c /\ Znth (results c) i = Some (Some (Err e)) /\ Znth (heap c) 0 = Some t'.

(** scipy (external): iteration over the rows of a sparse matrix *)
Variable sparse_rows : arr -> list arr.
(** Iteration over an array gives its entries along the first axis, over a list its entries. *)
Definition items_of (X : checked) : list arr :=
  match X with
  | OutArr x =>
      match a_kind x, a_shape x with
      | Sparse, _ => sparse_rows x
      | _, n :: s =>
          let w := fold_right Z.mul 1 s in
          tabZ n (fun i => MkArr Dense s (py_sub (Some (i * w)) (Some ((i + 1) * w)) (a_data x)))
      | _, [] => []
      end
  | OutList l | OutStacked l => l
  end.

Inductive output := OStack (l : list B) | OList (l : list B).
(** lines 162-166 *)
Definition shape_attr (y : B) : res (list Z) := match shape_of y with Some s => Ok s | None => Err AttributeError end.
Definition finish (ys : list B) : res output :=
  do y0 <- py_get ys 0;
  do s0 <- shape_attr y0;
  do ss <- mapM shape_attr ys;
  if forallb (fun s => shape_eqb s s0) ss then Ok (OStack ys) else Ok (OList ys).

(** lines 132-166 fit_transform and 168-190 transform: the possible outcomes, with the transformer
    afterwards.  The decorator of line 132 takes the method away if the transformer has no
    fit_transform; cloning is a TypeError for objects without get_params. *)
Definition ct_outcome (t : obj) (X : collection) (o : res output) (t' : obj) : Prop :=
  if negb has_fit_transform then o = Err AttributeError /\ t' = t else
  match check_collection X true (Some FFalse) with
  | Err e => o = Err e /\ t' = t
  | Ok Xt =>
      match items_of Xt with
      | [] => o = Err IndexError /\ t' = t
      | items =>
          if negb has_get_params then o = Err TypeError /\ t' = t else
          (exists e, parallel_raises t items e t' /\ o = Err e) \/
          (exists ys, parallel_returns t items ys t' /\ o = finish ys)
      end
  end.
(** lines 105-130 fit, 96-103 _validate_transformer *)
Definition ct_fit (X : collection) : res unit :=
  do _ <- check_collection X true (Some FFalse);
  if negb has_fit_transform then Err TypeError else Ok tt.
End Collection.
Arguments obj : clear implicits. Arguments cfg : clear implicits. Arguments output : clear implicits.

(** ** ListFeatureUnion *)
Section Union.
Context {O X Y V R W : Type}.
Variable M : methods O X Y V R.
(** Weights and multiplication of a result by a weight. *)
Variable times : X -> W -> X.
Notation params := (list (string * V)).
(** transformer_list, with None for 'drop' (or None), and transformer_weights; the transformers are
    distinct objects. *)
Notation entries := (list (string * option O)).

(** scikit-learn (external): FeatureUnion._validate_transformers *)
Definition validate_transformers (l : entries) : res unit :=
  match l with
  | [] => Err ValueError
  | _ =>
      let names := map fst l in
      if negb (names_unique names) then Err ValueError else
      if existsb (fun n => existsb (String.eqb n) ["transformer_list"; "n_jobs"; "transformer_weights"; "verbose"]%string) names
      then Err ValueError else
      if existsb has_dunder names then Err ValueError else
      if existsb (fun p => match snd p with
                           | Some o => negb (has M o Fit || has M o FitTransform) || negb (has M o Transform)
                           | None => false
                           end) l then Err TypeError else Ok tt
  end.
(** scikit-learn (external): FeatureUnion._iter *)
Definition union_iter (l : entries) (weights : list (string * W)) : list (O * option W) :=
  flat_map (fun p => match snd p with Some o => [(o, ValidModel.lookup (fst p) weights)] | None => [] end) l.
(** scikit-learn (external): _fit_transform_one, _transform_one *)
Definition weighted (w : option W) (x : X) : X := match w with None => x | Some w => times x w end.
Definition fit_transform_one (x : X) (y : option Y) (p : params) (ow : O * option W) : res (X * O) :=
  let (o, w) := ow in
  do r <- (if has M o FitTransform then fit_transform M o x y p
           else do o' <- fit M o x y p; do x' <- transform M o' x; Ok (o', x'));
  Ok (weighted w (snd r), fst r).
Definition transform_one (x : X) (ow : O * option W) : res X :=
  do x' <- transform M (fst ow) x; Ok (weighted (snd ow) x').
(** scikit-learn (external): FeatureUnion._update_transformer_list *)
Fixpoint update_transformer_list (l : entries) (ts : list O) : entries :=
  match l with
  | [] => []
  | (n, None) :: l => (n, None) :: update_transformer_list l ts
  | (n, Some o) :: l =>
      match ts with
      | t :: ts => (n, Some t) :: update_transformer_list l ts
      | [] => (n, Some o) :: update_transformer_list l ts
      end
  end.
(** _list_feature_union.py lines 7-29 and 31-50: a list of results, or the array np.zeros((n, 0))
    (None here) without transformers *)
Definition lfu_fit_transform (l : entries) (weights : list (string * W)) (x : X) (y : option Y) (p : params)
  : res (entries * option (list X)) :=
  do _ <- validate_transformers l;
  do results <- mapM (fit_transform_one x y p) (union_iter l weights);
  match results with
  | [] => Ok (l, None)
  | _ => Ok (update_transformer_list l (map snd results), Some (map fst results))
  end.
Definition lfu_transform (l : entries) (weights : list (string * W)) (x : X) : res (option (list X)) :=
  do Xt <- mapM (transform_one x) (union_iter l weights);
  match Xt with [] => Ok None | _ => Ok (Some Xt) end.
End Union.
