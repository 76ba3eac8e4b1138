(** Specifications for silhouettes, amplitudes and distances (C22, C24, C25). *)
From Coq Require Import Reals Permutation.
From Verif Require Import Np Fl DiagTypes DiagSpec VecSpec RNp MetricModel.
Open Scope Z_scope.

(** ** Norms.  x^y for x >= 0, y > 0. *)
Definition spow (x y : R) : R := if Req_EM_T x 0 then 0%R else exp (y * ln x).
Fixpoint total (l : list R) : R :=
  match l with [] => 0%R | x :: t => (x + total t)%R end.
(** [r] is the p-norm of [v]. *)
Definition is_norm (p : expo) (v : list R) (r : R) : Prop :=
  (0 <= r)%R /\
  match p with
  | Pfin p => spow r p = total (map (fun x => spow (Rabs x) p) v)
  | Pinf => (forall x, In x v -> (Rabs x <= r)%R) /\
            (v = [] /\ r = 0%R \/ exists x, In x v /\ Rabs x = r)
  end.
Definition ge1 (p : expo) : Prop :=
  match p with Pfin p => (1 <= p)%R | Pinf => True end.

(** ** Silhouettes *)
Definition life (p : Qc * Qc) : R := qr (snd p - fst p)%Qc.
(** Weight of a point: lifetime^power; for an infinite power, 1 for the points
    of largest lifetime and 0 for the others. *)
Definition is_weight (power : expo) (x : list (Qc * Qc)) (w : Qc * Qc -> R) : Prop :=
  forall p, In p x ->
  match power with
  | Pfin a => w p = spow (life p) a
  | Pinf => ((forall p', In p' x -> (life p' <= life p)%R) -> w p = 1%R) /\
            ((exists p', In p' x /\ (life p < life p')%R) -> w p = 0%R)
  end.
(** [v] is the silhouette of [x] at [s]: the weighted mean of the tents, 0 when
    all weights are 0. *)
Definition is_silhouette (power : expo) (x : list (Qc * Qc)) (s : Qc) (v : R) : Prop :=
  exists w, is_weight power x w /\
    (v * total (map w x) = total (map (fun p => w p * qr (tent s p)) x))%R /\
    (total (map w x) = 0 -> v = 0)%R.

(** ** Curves: the list of numbers a metric associates with the points [x] of
    one dimension, for the fitted grid [g] with [n] values per axis. *)
Definition is_curve (E : externals) (m : metric) (n : Z) (g : grid)
  (x : list (Qc * Qc)) (u : list R) : Prop :=
  match m with
  | Bottleneck | Wasserstein _ => u = map (fun p => life p / 2)%R x
  | Betti _ => u = map (fun s => IZR (alive_count s x)) (fst (fst g))
  | Landscape _ L =>
      exists layers : list (list R), has_shape L n layers /\ u = concat layers /\
      forall k i t, 0 <= k < L -> Znth (fst (fst g)) i = Some t ->
        exists v, entry layers k i = Some (qr v) /\
                  kth_largest (map (tent t) x) k v
  | Heat _ sigma =>
      exists H lo hi step, u = map qr (concat H) /\
        Znth (fst (fst g)) 0 = Some lo /\ Znth (fst (fst g)) (n - 1) = Some hi /\
        snd (fst g) = Fin step /\ is_heat (x_gauss1 E) lo hi n step sigma x H
  | PersImage _ sigma wf =>
      exists H lo0 hi0 lo1 hi1 step0 step1, u = map qr (concat H) /\
        Znth (fst (fst g)) 0 = Some lo0 /\ Znth (fst (fst g)) (n - 1) = Some hi0 /\
        Znth (fst (snd g)) 0 = Some lo1 /\ Znth (fst (snd g)) (n - 1) = Some hi1 /\
        snd (fst g) = Fin step0 /\ snd (snd g) = Fin step1 /\
        is_persistence_image (x_gauss2 E) lo0 hi0 lo1 hi1 n step0 step1 sigma
          (wf (fst (snd g))) x H
  | Silhouette _ power =>
      Forall2 (fun s v => is_silhouette power x s v) (fst (fst g)) u
  end.

(** The exponent, and the volume of a grid cell raised to 1/p. *)
Definition exponent (m : metric) : expo :=
  match m with
  | Bottleneck => Pinf | Wasserstein p => Pfin p
  | Betti p | Landscape p _ | Heat p _ | PersImage p _ _ | Silhouette p _ => p
  end.
Definition is_factor (m : metric) (g : grid) (c : R) : Prop :=
  match m, exponent m with
  | Bottleneck, _ | Wasserstein _, _ => c = 1%R
  | _, Pinf => c = 1%R
  | Heat _ _, Pfin p =>
      exists s, snd (fst g) = Fin s /\ c = spow (qr (s * s)%Qc) (1 / p)
  | PersImage _ _ _, Pfin p =>
      exists s0 s1, snd (fst g) = Fin s0 /\ snd (snd g) = Fin s1 /\
                    c = spow (qr (s0 * s1)%Qc) (1 / p)
  | _, Pfin p => exists s, snd (fst g) = Fin s /\ c = spow (qr s) (1 / p)
  end.

Definition vectorised (m : metric) : Prop :=
  match m with Bottleneck | Wasserstein _ => False | _ => True end.

(** Distance of two subdiagrams and amplitude of one. *)
Definition is_distance E m n g x y (r : R) : Prop :=
  exists u v c d, is_curve E m n g x u /\ is_curve E m n g y v /\
    is_factor m g c /\ length u = length v /\
    is_norm (exponent m) (map (fun ab => fst ab - snd ab)%R (combine u v)) d /\
    r = (c * d)%R.
Definition is_amplitude E m n g x (r : R) : Prop :=
  exists u c d, is_curve E m n g x u /\ is_factor m g c /\
    is_norm (exponent m) u d /\ r = (c * d)%R.

(** ** Optimal matchings.  A matching of [x] and [y] lists matched pairs and
    points left to the diagonal. *)
Inductive edge := Pair (p q : Qc * Qc) | LeftOnly (p : Qc * Qc) | RightOnly (q : Qc * Qc).
Definition lefts (M : list edge) : list (Qc * Qc) :=
  flat_map (fun e => match e with Pair p _ | LeftOnly p => [p] | RightOnly _ => [] end) M.
Definition rights (M : list edge) : list (Qc * Qc) :=
  flat_map (fun e => match e with Pair _ q | RightOnly q => [q] | LeftOnly _ => [] end) M.
Definition is_matching (x y : list (Qc * Qc)) (M : list edge) : Prop :=
  Permutation (lefts M) x /\ Permutation (rights M) y.
(** Chebyshev distance of two points of the plane. *)
Definition cheb (p q : R * R) : R := Rmax (Rabs (fst p - fst q)) (Rabs (snd p - snd q)).
Definition real_pt (p : Qc * Qc) : R * R := (qr (fst p), qr (snd p)).
(** [r] is the least Chebyshev distance from [p] to a point of the diagonal. *)
Definition to_diagonal (p : Qc * Qc) (r : R) : Prop :=
  (exists t, r = cheb (real_pt p) (t, t)) /\
  forall t, (r <= cheb (real_pt p) (t, t))%R.
Definition edge_cost (e : edge) (r : R) : Prop :=
  match e with
  | Pair p q => r = cheb (real_pt p) (real_pt q)
  | LeftOnly p | RightOnly p => to_diagonal p r
  end.
(** [r] is the cost of the matching: the p-norm of its edge costs. *)
Definition matching_cost (p : expo) (M : list edge) (r : R) : Prop :=
  exists costs, Forall2 edge_cost M costs /\ is_norm p costs r.
(** [r] is the least cost of a matching. *)
Definition is_matching_distance (p : expo) (x y : list (Qc * Qc)) (r : R) : Prop :=
  (exists M, is_matching x y M /\ matching_cost p M r) /\
  forall M r', is_matching x y M -> matching_cost p M r' -> (r <= r')%R.
(** An algorithm computing matching distances with relative error at most
    [delta]. *)
Definition approximates (delta : R) (p : expo)
  (f : list (Qc * Qc) -> list (Qc * Qc) -> R) : Prop :=
  forall x y r, is_matching_distance p x y r -> (r <= f x y <= (1 + delta) * r)%R.

(** ** Conditions under which a metric is defined on diagrams (no NaN). *)
Definition good_parameters (E : externals) (m : metric) (n : Z) : Prop :=
  ge1 (exponent m) /\
  match m with
  | Bottleneck | Wasserstein _ => 1 <= n
  | Betti p => 1 <= n /\ (n = 1 -> p = Pinf)
  | Landscape p L => 1 <= L /\ is_partition (x_partition E) /\
                     1 <= n /\ (n = 1 -> p = Pinf)
  | Heat _ _ => keeps_shape (x_gauss1 E) /\ 2 <= n
  | PersImage _ _ wf => keeps_shape (x_gauss2 E) /\
                        (forall l, zlen (wf l) = zlen l) /\ 2 <= n
  | Silhouette p power => 1 <= n /\ (n = 1 -> p = Pinf) /\
        match power with Pfin a => (0 < a)%R | Pinf => True end
  end.
(** Silhouettes with power > 8 are only defined on subdiagrams with an
    off-diagonal point. *)
Definition defined_on (m : metric) (dims : list fl) (Y : list diagram) : Prop :=
  match m with
  | Silhouette _ power =>
      match power with Pfin a => (a <= 8)%R | Pinf => False end \/
      forall y q, In y Y -> In q dims -> off_diagonal (points_of q y) <> []
  | _ => True
  end.

(** The grids stored by fit. *)
Definition metric_grids (m : metric) (n : Z) (X : list diagram)
  (g : list (fl * grid)) : Prop :=
  match m with
  | PersImage _ _ _ => fitted_grids2 n X g
  | _ => fitted_grids n X (map (fun e => (fst e, fst (snd e))) g)
  end.

(** All points of the diagram are on the diagonal. *)
Definition trivial_diagram (x : diagram) : Prop := forall p, In p x -> pb p = pd p.

(** Entry (i, j, c) of a pairwise distance array. *)
Definition value3 {V} (D : list (list (list V))) (i j c : Z) : option V :=
  match entry D i j with Some r => Znth r c | None => None end.
(** [d], defined and not NaN on 0..N-1, is a pseudo-metric. *)
Definition pseudo_metric (N : Z) (d : Z -> Z -> option (option R)) : Prop :=
  exists f : Z -> Z -> R,
    (forall i j, 0 <= i < N -> 0 <= j < N -> d i j = Some (Some (f i j))) /\
    (forall i, 0 <= i < N -> f i i = 0%R) /\
    (forall i j, 0 <= i < N -> 0 <= j < N -> f i j = f j i /\ (0 <= f i j)%R) /\
    (forall i j k, 0 <= i < N -> 0 <= j < N -> 0 <= k < N ->
       (f i k <= f i j + f j k)%R).

(** gauss maps the zero image to the zero image. *)
Definition zero_image (im : list (list Qc)) : Prop :=
  forall r v, In r im -> In v r -> v = 0%Qc.
Definition keeps_zero {P} (gauss : P -> list (list Qc) -> list (list Qc)) : Prop :=
  forall p im, zero_image im -> zero_image (gauss p im).
(** Metrics given by a curve that vanishes on trivial diagrams. *)
Definition comparable (E : externals) (m : metric) : Prop :=
  match m with
  | Betti _ | Landscape _ _ | Silhouette _ _ => True
  | Heat _ _ => keeps_zero (x_gauss1 E)
  | _ => False
  end.
(** Every diagram of [Y] has a point, possibly on the diagonal, in each
    dimension. *)
Definition has_points (dims : list fl) (Y : list diagram) : Prop :=
  forall y q, In y Y -> In q dims -> rows_of q y <> [].
