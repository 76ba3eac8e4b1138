(** Specifications for local homology (C58, C59). *)
From Verif Require Import Np Fl GraphSpec.
Open Scope Z_scope.

(** The matrix M of the cone: its vertices are the distinct points numbered by [vertices], then
    the cone point.  Vertices satisfying [inner] are infinitely far from the cone point, the
    others at distance 0 from it. *)
Definition is_cone {P} (dist : P -> P -> fl) (train : list P) (inner : Z -> Prop) (vertices : list Z)
  (M : list (list fl)) : Prop :=
  square M (zlen vertices + 1) /\
  (forall a b i j p q, Znth vertices a = Some i -> Znth vertices b = Some j ->
     Znth train i = Some p -> Znth train j = Some q -> a <> b -> entry M a b = Some (dist p q)) /\
  (forall a, 0 <= a <= zlen vertices -> entry M a a = Some (fz 0)) /\
  (forall a i, Znth vertices a = Some i -> inner i ->
     entry M a (zlen vertices) = Some PInf /\ entry M (zlen vertices) a = Some PInf) /\
  (forall a i, Znth vertices a = Some i -> ~ inner i ->
     entry M a (zlen vertices) = Some (fz 0) /\ entry M (zlen vertices) a = Some (fz 0)).

(** The documented matrix of a point whose inner and larger neighbourhoods (sets of numbers of
    training points) are given: the cone over the larger one, or only the cone point if the inner
    one is empty ("the coned off space retracts to the cone point"). *)
Definition documented_matrix {P} (dist : P -> P -> fl) (train : list P) (inner larger : Z -> Prop)
  (M : list (list fl)) : Prop :=
  ((exists k, inner k) -> exists vertices, NoDup vertices /\ (forall k, In k vertices <-> larger k) /\
                              is_cone dist train inner vertices M) /\
  (~ (exists k, inner k) -> M = [[fz 0]]).

(** The training points at distance at most r. *)
Definition within {P} (dist : P -> P -> fl) (train : list P) (x : P) (r : Qc) (k : Z) : Prop :=
  exists p, Znth train k = Some p /\ fle (dist x p) (Fin r) = true.
(** l holds k nearest training points. *)
Definition nearest {P} (dist : P -> P -> fl) (train : list P) (x : P) (k : Z) (l : list Z) : Prop :=
  NoDup l /\ zlen l = k /\ (forall i, In i l -> 0 <= i < zlen train) /\
  forall i j p q, In i l -> ~ In j l -> Znth train i = Some p -> Znth train j = Some q -> fle (dist x p) (dist x q) = true.
(** No two training points are equally far. *)
Definition no_ties {P} (dist : P -> P -> fl) (train : list P) (x : P) : Prop :=
  forall i j p q, Znth train i = Some p -> Znth train j = Some q -> i <> j -> dist x p <> dist x q.
(** The k nearest points: those with fewer than k points strictly nearer (without ties). *)
Definition k_nearest {P} (dist : P -> P -> fl) (train : list P) (x : P) (k : Z) (i : Z) : Prop :=
  exists p, Znth train i = Some p /\
    zlen (filter (fun q => flt (dist x q) (dist x p)) train) < k.
