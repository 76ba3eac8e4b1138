(** Specification of parameter validation and of point-cloud validation (C51, C61). *)
From Coq Require Import String.
From Verif Require Import Np Fl ValidModel.
Open Scope Z_scope.

Section Spec.
(** The classes an object is an instance of, other than the containers and NoneType; the
    items of an object which is not a container; the object standing for a key. *)
Variable inst : value -> Z -> bool.
Variable iter : value -> res (list value).
Variable key_value : string -> value.

Definition instance_of (v : value) (c : cls) : Prop :=
  match c with
  | CList => exists l, v = VList l
  | CTuple => exists l, v = VTuple l
  | CArray => exists l, v = VArray l
  | CDict => exists l, v = VDict l
  | CNoneType => v = VNone
  | CClass c => inst v c = true
  end.
Definition has_type (v : value) (t : option tspec) : Prop :=
  match t with
  | None => True
  | Some (One c) => instance_of v c
  | Some (Many l) => exists c, In c l /\ instance_of v c
  end.
Definition container (v : value) : Prop :=
  exists l, v = VList l \/ v = VTuple l \/ v = VArray l \/ exists d, v = VDict d.

(** The first level of the checks: the type, and for objects which are not containers
    the set of allowed values (not checked for None) and the custom check. *)
Definition passes (v : value) (r : ref) : Prop :=
  match r with
  | NoRef => True
  | Ref t r_in r_other _ =>
      has_type v t /\
      (~ container v ->
        (v = VNone \/ forall f, r_in = Some f -> f v = Ok true) /\
        (forall g, r_other = Some g -> exists b, g v = Ok b))
  end.
(** The exception raised at the first level. *)
Inductive fails (v : value) : ref -> exn -> Prop :=
| fails_type t r_in r_other r_of : ~ has_type v t -> fails v (Ref t r_in r_other r_of) TypeError
| fails_in t f r_other r_of : has_type v t -> ~ container v -> v <> VNone -> f v = Ok false ->
    fails v (Ref t (Some f) r_other r_of) ValueError
| fails_in_raise t f r_other r_of e : has_type v t -> ~ container v -> v <> VNone -> f v = Err e ->
    fails v (Ref t (Some f) r_other r_of) e
| fails_other t r_in g r_of e : has_type v t -> ~ container v ->
    (v = VNone \/ forall f, r_in = Some f -> f v = Ok true) -> g v = Err e ->
    fails v (Ref t r_in (Some g) r_of) e.

(** Whether the content of [v] is checked, and how.  Containers are checked if some type is
    required; other objects only if the custom check returns something true. *)
Definition as_dict (t : option tspec) : Prop := t = Some (One CDict).
Definition as_items (v : value) (t : option tspec) (r_other : option (value -> res bool)) : Prop :=
  (container v /\ t <> None /\ ~ as_dict t) \/ (~ container v /\ exists g, r_other = Some g /\ g v = Ok true).
Definition items_of (v : value) (l : list value) : Prop :=
  match v with
  | VList m | VTuple m | VArray m => l = m
  | VDict m => l = map (fun p => key_value (fst p)) m
  | _ => iter v = Ok l
  end.

(** Acceptance of a parameter: the first level, then each entry of a dictionary recursively, or
    the first level of each item of another container. *)
Inductive accepted : value -> ref -> Prop :=
| acc_none v : accepted v NoRef
| acc_flat v t r_in r_other r_of : passes v (Ref t r_in r_other r_of) ->
    r_of = OfNone \/ (~ as_dict t /\ ~ as_items v t r_other) -> accepted v (Ref t r_in r_other r_of)
| acc_dict m t r_in r_other refs : as_dict t ->
    (forall k x, In (k, x) m -> exists r, lookup k refs = Some r /\ accepted x r) ->
    accepted (VDict m) (Ref t r_in r_other (OfDict refs))
| acc_items v t r_in r_other e l : passes v (Ref t r_in r_other (OfElem e)) -> as_items v t r_other -> items_of v l ->
    (forall x, In x l -> passes x e) -> accepted v (Ref t r_in r_other (OfElem e)).

(** Rejection with an exception: the first failing check raises. *)
Inductive rejected : value -> ref -> exn -> Prop :=
| rej_first v r e : fails v r e -> rejected v r e
| rej_dict_name m t r_in r_other refs pre k x post : as_dict t -> m = pre ++ (k, x) :: post ->
    (forall k' x', In (k', x') pre -> exists r, lookup k' refs = Some r /\ accepted x' r) ->
    lookup k refs = None -> rejected (VDict m) (Ref t r_in r_other (OfDict refs)) KeyError
| rej_dict_value m t r_in r_other refs pre k x post r e : as_dict t -> m = pre ++ (k, x) :: post ->
    (forall k' x', In (k', x') pre -> exists r, lookup k' refs = Some r /\ accepted x' r) ->
    lookup k refs = Some r -> rejected x r e -> rejected (VDict m) (Ref t r_in r_other (OfDict refs)) e
| rej_items v t r_in r_other el pre x post e : passes v (Ref t r_in r_other (OfElem el)) -> as_items v t r_other ->
    items_of v (pre ++ x :: post) -> (forall y, In y pre -> passes y el) -> fails x el e ->
    rejected v (Ref t r_in r_other (OfElem el)) e
| rej_iter v t r_in r_other el e : passes v (Ref t r_in r_other (OfElem el)) -> as_items v t r_other ->
    ~ container v -> iter v = Err e -> rejected v (Ref t r_in r_other (OfElem el)) e.
End Spec.

(** A reference is written as documented: 'of' is a dictionary of references when 'type' is
    dict, and a reference otherwise; in depth. *)
Inductive documented : ref -> Prop :=
| doc_none : documented NoRef
| doc_flat t r_in r_other : documented (Ref t r_in r_other OfNone)
| doc_dict r_in r_other refs : (forall k r, lookup k refs = Some r -> documented r) ->
    documented (Ref (Some (One CDict)) r_in r_other (OfDict refs))
| doc_elem t r_in r_other e : t <> Some (One CDict) -> documented (Ref t r_in r_other (OfElem e)).

(** ** Point clouds *)
(** The entries allowed, given the argument force_all_finite (not passed: [None]). *)
Definition allowed (distance_matrices : bool) (f : option finite_opt) (x : fl) : Prop :=
  match f, distance_matrices with
  | None, false | Some FTrue, _ => exists q, x = Fin q
  | None, true | Some FFalse, _ => x <> NaN
  | Some FAllowNan, _ => x <> PInf /\ x <> NInf
  end.
(** An admissible entry of a list: non-empty, with two axes, square if a dense distance matrix. *)
Definition good_entry (distance_matrices : bool) (f : option finite_opt) (x : arr) : Prop :=
  (exists n m, a_shape x = [n; m] /\ 1 <= n /\ 1 <= m /\ (distance_matrices = true -> a_kind x = Dense -> n = m)) /\
  forall y, In y (a_data x) -> allowed distance_matrices f y.
