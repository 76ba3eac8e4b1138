(** Specifications for the height, radial and density filtrations. *)
From Coq Require Import Reals.
From Verif Require Import Np Nd ImgSpec RNp.
Open Scope Z_scope.

(** Coordinates (column, row, depth) of a pixel. *)
Definition coords (idx : list Z) : list Z :=
  match idx with r :: c :: t => c :: r :: t | _ => idx end.
Fixpoint inner (u : list Z) (v : list R) : R :=
  match u, v with a :: u, b :: v => (IZR a * b + inner u v)%R | _, _ => 0%R end.
(** Unit vector in the direction of [d]: non-negative multiple of length one. *)
Fixpoint sumsq (v : list R) : R := match v with [] => 0%R | a :: v => (a * a + sumsq v)%R end.
Definition unit_of (d u : list R) : Prop :=
  sumsq u = 1%R /\ exists c, (0 < c)%R /\ d = map (Rmult c) u.
(** The value of [p] is its distance to the supporting hyperplane orthogonal to
    [u] of the box of all pixels of shape [s]: the difference to the least inner
    product of a pixel with [u]. *)
Definition is_height (s : list Z) (u : list R) (p : list Z) (v : R) : Prop :=
  exists q, inside s q = true /\
    (forall q', inside s q' = true -> (inner (coords q) u <= inner (coords q') u)%R) /\
    v = (inner (coords p) u - inner (coords q) u)%R.
Definition within (d : R) (radius : option R) : Prop :=
  match radius with None => True | Some r => (d <= r)%R end.

(** The point of a pixel in space. *)
Definition point3 (idx : list Z) : list R :=
  match idx with
  | [r; c] => [IZR c; IZR r; 0%R]
  | [r; c; d] => [IZR c; IZR r; IZR d]
  | _ => []
  end.
(** [v] is the sum of the pixels within distance [radius]. *)
Definition is_density (metric : list R -> list R -> R) (radius : R) (x : nd Z) (idx : list Z) (v : Z)
  : Prop :=
  exists near values,
    NoDup near /\
    (forall q, In q near <-> inside (nshape x) q = true /\ (metric (point3 q) (point3 idx) <= radius)%R) /\
    Forall2 (fun q u => nget x q = Some u) near values /\
    v = fold_right Z.add 0 values.
(** What is needed of a metric: invariant under translations, and a ball of the
    radius lies in the cube considered by the code, whose size is the rounded up
    distance of 0 and the radius. *)
Definition proper_metric (metric : list R -> list R -> R) (radius : R) : Prop :=
  let m := metric [0%R] [radius] in
  (0 < m)%R /\
  (forall a b c a' b' c' x y z,
     metric [(x + a)%R; (y + b)%R; (z + c)%R] [(x + a')%R; (y + b')%R; (z + c')%R] = metric [a; b; c] [a'; b'; c']) /\
  (forall a b c a' b' c', (metric [a; b; c] [a'; b'; c'] <= radius)%R ->
     (Rabs (a - a') <= m /\ Rabs (b - b') <= m /\ Rabs (c - c') <= m)%R).
