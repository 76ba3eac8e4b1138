(** Specification of the interactive Mapper plot, independent of the model. *)
From Coq Require Import Ascii String.
From Verif Require Import Np Fl MplotTypes IplotTypes.
Open Scope Z_scope.

(** The value of a parameter. *)
Definition value_of (d : params) (k : string) (v : pval) : Prop := In (k, v) d.
(** Dictionaries: a name has one value. *)
Definition dict (d : params) : Prop := NoDup (map fst d).
(** Two values of the same type among those that can be edited. *)
Inductive same_type : pval -> pval -> Prop :=
| same_int : forall x y, same_type (PInt x) (PInt y)
| same_float : forall x y, same_type (PFloat x) (PFloat y)
| same_bool : forall x y, same_type (PBool x) (PBool y)
| same_str : forall x y, same_type (PStr x) (PStr y).
(** The parameters with a widget: those of the cover and of the clusterer, and two of
    the nerve, if their values can be edited. *)
Definition editable (d : params) (k : string) : Prop :=
  (String.prefix "cover__" k = true \/ String.prefix "clusterer__" k = true \/ k = "min_intersection"%string \/ k = "contract_nodes"%string) /\
  exists v, value_of d k v /\ same_type v v.
(** Those of them that are passed on to the pipeline: not floats or strings in the
    nerve. *)
Definition passed_on (d : params) (k : string) : Prop :=
  editable d k /\
  ((k = "min_intersection"%string \/ k = "contract_nodes"%string) ->
   forall v, value_of d k v -> (exists z, v = PInt z) \/ exists b, v = PBool b).
(** The value shown by the widget of [k] after some changes: the last one of the right
    type, or the initial value. *)
Inductive shown_value (init : pval) (k : string) : list (string * pval) -> pval -> Prop :=
| shown_init : shown_value init k [] init
| shown_change : forall h v w, shown_value init k h v -> same_type v w -> shown_value init k (h ++ [(k, w)]) w
| shown_bad : forall h v w, shown_value init k h v -> ~ same_type v w -> shown_value init k (h ++ [(k, w)]) v
| shown_other : forall h v k' w, shown_value init k h v -> k' <> k -> shown_value init k (h ++ [(k', w)]) v.
(** The parameters of the pipeline after some changes. *)
Definition updated (d : params) (h : list (string * pval)) (d' : params) : Prop :=
  map fst d' = map fst d /\
  forall k v v', value_of d k v -> value_of d' k v' ->
    (passed_on d k -> shown_value v k h v') /\ (~ passed_on d k -> v' = v).
