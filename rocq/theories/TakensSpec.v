(** Specifications for the scores of the Takens parameter search (C66, C67). *)
From Coq Require Import Reals.
From Verif Require Import Np Fl MetricSpec.
From Verif Require Export TSSpec.
Open Scope Z_scope.

(** [c] of the numbers 0, ..., n - 1 satisfy [P]. *)
Definition counts (P : Z -> Prop) (n c : Z) : Prop :=
  exists l, NoDup l /\ (forall k, In k l <-> 0 <= k < n /\ P k) /\ zlen l = c.

(** ** Mutual information *)
(** The interval divided in bins: from the smallest to the largest value, widened by 1/2 if equal. *)
Definition is_interval (l : list R) (lo hi : R) : Prop :=
  exists a b, In a l /\ In b l /\ (forall x, In x l -> (a <= x <= b)%R) /\
    (a <> b -> lo = a /\ hi = b) /\ (a = b -> lo = (a - 1 / 2)%R /\ hi = (b + 1 / 2)%R).
(** [x] is in the i-th of m bins of equal width; the last one is closed. *)
Definition in_bin (lo hi : R) (m i : Z) (x : R) : Prop :=
  0 <= i < m /\
  (lo + IZR i * ((hi - lo) / IZR m) <= x)%R /\
  ((x < lo + (IZR i + 1) * ((hi - lo) / IZR m))%R \/ i = m - 1 /\ x = hi).
(** Sum over i = 0, ..., m - 1 *)
Definition Sum (m : Z) (f : Z -> R) : R := total (map f (arange m)).
(** The mutual information of two variables with values 0, ..., m - 1 and joint counts [c]. *)
Definition information (m : Z) (c : Z -> Z -> R) : R :=
  let N := Sum m (fun i => Sum m (c i)) in
  let p i j := (c i j / N)%R in
  Sum m (fun i => Sum m (fun j =>
    if Req_EM_T (c i j) 0 then 0%R
    else (p i j * ln (p i j / (Sum m (p i) * Sum m (fun i' => p i' j))))%R)).

(** ** False nearest neighbours *)
Definition euclidean (u v : list R) : R := sqrt (total (map (fun ab => ((fst ab - snd ab) * (fst ab - snd ab))%R) (combine u v))).
(** [nb] gives for each point its nearest other point and the distance to it. *)
Definition nearest (pts : list (list R)) (nb : list (R * Z)) : Prop :=
  zlen nb = zlen pts /\
  forall k p d j, Znth pts k = Some p -> Znth nb k = Some (d, j) ->
    j <> k /\ (exists q, Znth pts j = Some q /\ d = euclidean p q) /\
    forall j' q', j' <> k -> Znth pts j' = Some q' -> (d <= euclidean p q')%R.
(** Population standard deviation *)
Definition deviation (X : list R) (s : R) : Prop :=
  (0 <= s)%R /\
  (s * s = total (map (fun x => (x - total X / IZR (zlen X)) * (x - total X / IZR (zlen X))) X) / IZR (zlen X))%R.
(** [A] lists X[0], ..., X[n - t - 1] and [B] lists X[t], ..., X[n - 1]. *)
Definition delayed (X : list R) (t : Z) (A B : list R) : Prop :=
  zlen A = Z.max 0 (zlen X - t) /\ zlen B = Z.max 0 (zlen X - t) /\
  forall k, 0 <= k < zlen X - t -> Znth A k = Znth X k /\ Znth B k = Znth X (k + t).
(** c i j is the number of positions k with A[k] in bin i and B[k] in bin j, for m bins dividing the
    range of A and m bins dividing the range of B. *)
Definition joint (A B : list R) (m : Z) (c : Z -> Z -> Z) : Prop :=
  exists lo hi lo' hi', is_interval A lo hi /\ is_interval B lo' hi' /\
  forall i j, 0 <= i < m -> 0 <= j < m ->
    counts (fun k => exists a b, Znth A k = Some a /\ Znth B k = Some b /\
                       in_bin lo hi m i a /\ in_bin lo' hi' m j b) (zlen A) (c i j).
