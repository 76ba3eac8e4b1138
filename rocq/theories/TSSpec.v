(** Specifications for the time-series theorems, independent of the model. *)
From Verif Require Import Np Fl.
Open Scope Z_scope.

(** [w] is the run of [size] consecutive entries of [X] starting at [a]. *)
Definition is_run {A} (X : list A) (a size : Z) (w : list A) : Prop :=
  zlen w = size /\ forall j, 0 <= j < size -> Znth w j = Znth X (a + j) /\ Znth w j <> None.

(** [w] is the delay vector (X[a], X[a+t], ..., X[a+(d-1)t]). *)
Definition is_delay_vector {A} (X : list A) (a t d : Z) (w : list A) : Prop :=
  zlen w = d /\ forall j, 0 <= j < d -> Znth w j = Znth X (a + j * t) /\ Znth w j <> None.

(** Value [v >= 0] falls in class [k] of the thresholds t_0, ..., t_(m-1):
    t_(k-1) <= v < t_k, with no lower bound for k = 0 and no upper bound for
    k = m. *)
Definition in_class (ts : list fl) (k : Z) (v : fl) : Prop :=
  0 <= k <= zlen ts /\
  (forall lo, Znth ts (k - 1) = Some lo -> fle lo v = true) /\
  (forall hi, Znth ts k = Some hi -> flt v hi = true).

(** Documented dimension score: |f(d) - 2 f(d+1) + f(d+2)| / (f(d+1) + 1) / d
    where f is the number of false nearest neighbours. *)
Definition dim_score (f : Z -> Z) (d : Z) : Qc :=
  (Q2Qc (inject_Z (Z.abs (f d - 2 * f (d + 1)%Z + f (d + 2)%Z)))
   / Q2Qc (inject_Z (f (d + 1)%Z + 1)) / Q2Qc (inject_Z d))%Qc.
