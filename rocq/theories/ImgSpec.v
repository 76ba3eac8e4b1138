(** Specifications for images. *)
From Verif Require Import Np Nd Fl.
Open Scope Z_scope.

(** A collection of proper images of shape [s]. *)
Definition images {A} (s : list Z) (X : list (nd A)) : Prop :=
  X <> [] /\ forall x, In x X -> wf x /\ nshape x = s.
(** Same shape, and value related to the position. *)
Definition pixelwise {A B} (P : list Z -> A -> Prop) (x : nd B) (y : nd A) : Prop :=
  nshape y = nshape x /\
  forall idx, inside (nshape x) idx = true -> exists v, nget y idx = Some v /\ P idx v.

Definition binary (x : nd Z) : Prop := forall idx v, nget x idx = Some v -> v = 0 \/ v = 1.
(** Taxicab distance of two positions. *)
Fixpoint taxicab (a b : list Z) : Z :=
  match a, b with i :: a, j :: b => Z.abs (i - j) + taxicab a b | _, _ => 0 end.
(** [d] is the distance from [idx] to the closest pixel of [x] with value [c]. *)
Definition closest (x : nd Z) (c : Z) (idx : list Z) (d : Z) : Prop :=
  (exists j, nget x j = Some c /\ taxicab idx j = d) /\
  forall j, nget x j = Some c -> d <= taxicab idx j.
Definition none (x : nd Z) (c : Z) : Prop := forall j, nget x j <> Some c.
(** Values of the three distance filtrations with [k] steps and largest value [m]. *)
Definition is_dilation (k m : Z) (x : nd Z) (idx : list Z) (v : Z) : Prop :=
  (forall d, closest x 1 idx d -> v = if d <=? k then d else m) /\
  (none x 1 -> v = m).
Definition is_erosion (k m : Z) (x : nd Z) (idx : list Z) (v : Z) : Prop :=
  (forall d, closest x 0 idx d -> v = if d <=? k then d else m) /\
  (none x 0 -> v = m).
Definition is_signed_distance (k m : Z) (x : nd Z) (idx : list Z) (v : Z) : Prop :=
  (nget x idx = Some 1 ->
     (forall d, closest x 0 idx d -> v = if d <=? k then d - 1 else m) /\ (none x 0 -> v = m)) /\
  (nget x idx = Some 0 ->
     (forall d, closest x 1 idx d -> v = if d <=? k then - d else - m) /\ (none x 1 -> v = - m)).
Definition total_size (s : list Z) : Z := fold_right Z.add 0 s.
(** The parameter n_iterations, and the resulting number of steps. *)
Definition valid_iterations (n : option Z) : Prop := match n with Some n => 1 <= n | None => True end.
Definition step_count (n : option Z) (m : Z) : Z := match n with Some n => Z.min n m | None => m end.

(** [y] is [x] with the two values exchanged. *)
Definition inverted (x y : nd Z) : Prop :=
  wf y /\ nshape y = nshape x /\ forall idx v, nget x idx = Some v -> nget y idx = Some (1 - v).
(** The largest pixel of a collection. *)
Definition largest (X : list (nd Qc)) (m : Qc) : Prop :=
  (exists x idx, In x X /\ nget x idx = Some m) /\
  forall x idx v, In x X -> nget x idx = Some v -> (v <= m)%Qc.
Definition is_binarized (t m v : Qc) (b : bool) : Prop :=
  (m <> 0%Qc -> (b = true <-> (t < v / m)%Qc)) /\ (m = 0%Qc -> (b = true <-> (0 < v)%Qc)).
(** Componentwise sum and difference of equally long lists. *)
Fixpoint plus_ (a b : list Z) : list Z :=
  match a, b with i :: a, j :: b => i + j :: plus_ a b | _, _ => [] end.
Fixpoint minus_ (a b : list Z) : list Z :=
  match a, b with i :: a, j :: b => i - j :: minus_ a b | _, _ => [] end.
Definition is_padded {A} (p : list Z) (value : A) (x y : nd A) : Prop :=
  nshape y = plus_ (plus_ (nshape x) p) p /\
  (forall idx v, nget x idx = Some v -> nget y (plus_ idx p) = Some v) /\
  (forall idx, inside (nshape y) idx = true -> inside (nshape x) (minus_ idx p) = false ->
     nget y idx = Some value).
(** The point for the pixel in row r, column c (and depth) of an image. *)
Definition point_of_pixel (s idx : list Z) : list Z :=
  match s, idx with n :: _, r :: c :: t => c :: (n - 1 - r) :: t | _, _ => [] end.
