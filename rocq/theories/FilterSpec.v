(** Specifications for the filters and callables used by Mapper (C64, C65). *)
From Coq Require Import Reals.
From Verif Require Import Np Fl RNp FeatModel MetricSpec FilterModel.
From Verif Require Export StatSpec.
Open Scope Z_scope.

(** An input array with finite entries [T]. *)
Definition finite_table (X : list (list xr)) (T : list (list R)) (n d : Z) : Prop :=
  table T n d /\ X = map (map XFin) T.
(** A non-empty input array of d columns with an entry which is not finite. *)
Definition bad_table (X : list (list xr)) (d : Z) : Prop :=
  (forall row, In row X -> zlen row = d) /\
  exists row v, In row X /\ In v row /\ forall r, v <> XFin r.

(** [r] is the norm of order [o] of [v], numpy's documentation. *)
Definition is_order_norm (o : order) (v : list R) (r : R) : Prop :=
  match o with
  | OPinf => is_norm Pinf v r
  | ONinf => (exists x, In x v /\ Rabs x = r) /\ forall x, In x v -> (r <= Rabs x)%R
  | Ofin p =>
      (p = 0%R -> r = IZR (zlen (filter (fun x => if Req_EM_T x 0 then false else true) v))) /\
      ((0 < p)%R -> is_norm (Pfin p) v r) /\
      ((p < 0)%R -> (In 0%R v -> r = 0%R) /\
                    (~ In 0%R v -> (0 < r)%R /\
                       exp (p * ln r) = total (map (fun x => exp (p * ln (Rabs x))) v)))
  end.
(** Distances are symmetric and 0 from a point to itself. *)
Definition metric_like {A} (dist : A -> A -> R) : Prop :=
  (forall x, dist x x = 0%R) /\ forall x y, dist x y = dist y x.

(** The probabilities are the absolute values divided by their sum; absent ones do not count. *)
Definition weights (row : list R) : list R :=
  filter (fun x => if Req_EM_T x 0 then false else true) (map Rabs row).

(** The position of column [c] among [d] columns, negative numbers counting from the end. *)
Definition column_position (d c p : Z) : Prop := 0 <= p < d /\ (c = p \/ c = p - d).

(** Position [p] of a frame carries the label [c]. *)
Definition carries (f : frame) (c p : Z) : Prop := Znth (labels f) p = Some c.
(** A frame of n rows. *)
Definition well_formed (f : frame) : Prop := forall row, In row (cells f) -> zlen row = zlen (labels f).

(** ** Callables *)
(** The numbers a callable returned. *)
Definition value_of (x : num) : Qc :=
  match x with NBool b => if b then 1%Qc else 0%Qc | NInt z => qz z | NFloat q => q end.
Definition values_of (r : result) : list Qc :=
  match r with Scalar x => [value_of x] | Vector _ l => map value_of l end.
(** An array holds numbers of its type only. *)
Definition typed (r : result) : Prop :=
  match r with Scalar _ => True | Vector d l => forall x, In x l -> dtype_of x = d end.
Definition same_shape (r r' : result) : Prop :=
  match r, r' with
  | Scalar _, Scalar _ => True
  | Vector _ l, Vector _ l' => zlen l = zlen l'
  | _, _ => False
  end.
(** A number that an array of the type can hold. *)
Definition representable (d : dtype) (q : Qc) : Prop :=
  match d with
  | DBool => q = 0%Qc \/ q = 1%Qc
  | DInt => exists z, q = qz z
  | DFloat => True
  end.
(** What an array of the type holds after the number [q] was assigned: integers are truncated towards
    zero, Booleans record whether the number is not 0. *)
Definition stored (d : dtype) (q v : Qc) : Prop :=
  match d with
  | DFloat => v = q
  | DBool => (q = 0%Qc -> v = 0%Qc) /\ (q <> 0%Qc -> v = 1%Qc)
  | DInt => exists z, v = qz z /\ ((0 <= q)%Qc -> (qz z <= q)%Qc /\ (q < qz (z + 1))%Qc) /\
                                  ((q < 0)%Qc -> (qz (z - 1) < q)%Qc /\ (q <= qz z)%Qc)
  end.
