(** Specification of the time series pipeline (C77). *)
From Coq Require Import Reals.
From Verif Require Import Np Fl DiagTypes DiagSpec VecSpec RNp FeatModel FeatSpec HomSpec TSSpec FlowModel.
Open Scope Z_scope.

(** The delay embedding of a window: its vectors X[a], X[a + t], ..., X[a + (d - 1) t], from a = the
    remainder (ensure_last_value) or 0, in steps of s. *)
Definition is_embedding {A} (w : list A) (t d s : Z) (ensure_last_value : bool) (c : list (list A)) : Prop :=
  let room := zlen w - t * (d - 1) - 1 in
  zlen c = room / s + 1 /\
  forall i, 0 <= i < zlen c -> exists v, Znth c i = Some v /\
    is_delay_vector w ((if ensure_last_value then room mod s else 0) + i * s) t d v.

(** The non-trivial points ripser gives in a dimension, as pairs of numbers. *)
Definition pairs (x : diagram) : list (Qc * Qc) :=
  map (fun p => match pb p, pd p with Fin b, Fin d => (b, d) | _, _ => (0, 0)%Qc end) x.

(** The value of a feature for the non-trivial points of one dimension. *)
Definition feature_value (k : scalar_feature) (points : list (Qc * Qc)) (v : xr) : Prop :=
  match k with
  | Entropy normalize fill => is_entropy_value normalize fill points v
  | Count => v = XFin (IZR (zlen points))
  end.

(** The requested dimensions in increasing order. *)
Definition sorted_dimensions (dims sorted : list Z) : Prop :=
  (forall d, In d sorted <-> In d dims) /\
  forall i j a b, 0 <= i < j -> Znth sorted i = Some a -> Znth sorted j = Some b -> a < b.

(** ripser's contract as needed here: one list for each dimension up to the largest; the finite
    values of births and deaths are numbers after replacement of infinite ones. *)
Definition ripser_answers {A} (ripser : Z -> fl -> A -> list (list (fl * fl))) (hi : Z)
  (max_edge_length inf_value : fl) (reduced : bool) (dims : list Z) (c : A) : Prop :=
  zlen (ripser hi max_edge_length c) = hi + 1 /\
  forall dim p, In dim dims -> In p (nontrivial_rows reduced inf_value (ByDimension (ripser hi max_edge_length c)) dim) ->
    exists b d, pb p = Fin b /\ pd p = Fin d.

(** The value given to infinite deaths: infinity_values, or else max_edge_length. *)
Definition value_for (max_edge_length : fl) (infinity_values : option fl) : fl :=
  match infinity_values with Some v => v | None => max_edge_length end.

Section Result.
Context {A B : Type}.
Variable ripser : Z -> fl -> list (list A) -> list (list (fl * fl)).
Variables (size stride t d s : Z) (ensure_last_value : bool) (max_edge_length inf_value : fl) (reduced : bool)
  (k : scalar_feature) (hi : Z) (sorted : list Z).
(** The row of features of a window: for each dimension, the feature of the non-trivial points ripser
    gives for the window's delay embedding. *)
Definition window_row (w : list A) (row : list xr) : Prop :=
  exists c, is_embedding w t d s ensure_last_value c /\
    Forall2 (fun dim v => feature_value k (pairs (nontrivial_rows reduced inf_value
      (ByDimension (ripser hi max_edge_length c)) dim)) v) sorted row.
(** What the pipeline gives for a series and its labels: for each window, aligned to the end of the
    series, its row and the label of its last time. *)
Definition flow_result (X : list A) (y : list B) (F : list (list xr)) (yr : list B) : Prop :=
  let n := (zlen X - size) / stride + 1 in
  zlen F = n /\ zlen yr = n /\
  forall i, 0 <= i < n ->
    let start := (zlen X - size) mod stride + i * stride in
    Znth yr i = Znth y (start + size - 1) /\
    exists w row, is_run X start size w /\ Znth F i = Some row /\ window_row w row.
End Result.
