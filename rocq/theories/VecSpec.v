(** Specifications for the vectorisations (C20, C21, C23, C30, C31),
    independent of the model. *)
From Coq Require Import Permutation Sorted.
From Verif Require Import Np Fl DiagTypes DiagSpec.
Open Scope Z_scope.

(** ** Points and curves *)

(** Number of points (b, d) with b <= s < d. *)
Fixpoint alive_count (s : Qc) (x : list (Qc * Qc)) : Z :=
  match x with
  | [] => 0
  | p :: t => (if Qcleb (fst p) s && Qcltb s (snd p) then 1 else 0) + alive_count s t
  end.

Definition smax (a b : Qc) : Qc := if Qcleb a b then b else a.
Definition smin (a b : Qc) : Qc := if Qcleb a b then a else b.
(** The tent function of a point: max(0, min(s - b, d - s)). *)
Definition tent (s : Qc) (p : Qc * Qc) : Qc := smax 0 (smin (s - fst p) (snd p - s)).

(** [v] is the k-th largest (k = 0, 1, ...) element of the multiset [l], and 0
    when [l] has at most k elements. *)
Definition kth_largest (l : list Qc) (k : Z) (v : Qc) : Prop :=
  exists L, Permutation L l /\ StronglySorted (fun a b => (b <= a)%Qc) L /\
    (Znth L k = Some v \/ zlen L <= k /\ v = 0%Qc).

(** Off-diagonal points. *)
Definition off_diagonal (x : list (Qc * Qc)) : list (Qc * Qc) :=
  filter (fun p => negb (Qceqb (fst p) (snd p))) x.
(** The two diagrams differ only by order and by diagonal points. *)
Definition same_off_diagonal (x y : list (Qc * Qc)) : Prop :=
  Permutation (off_diagonal x) (off_diagonal y).

(** The finite points of one dimension of a diagram. *)
Definition points_of (q : fl) (x : diagram) : list (Qc * Qc) :=
  map (fun p => match pb p, pd p with Fin b, Fin d => (b, d) | _, _ => (0, 0)%Qc end)
      (rows_of q x).

(** ** numpy's partition: the positions [pos] (counted from the end when
    negative) hold the values they would hold in the sorted array. *)
Definition is_partition (part : list Z -> list Qc -> list Qc) : Prop :=
  forall pos l, Permutation (part pos l) l /\
    forall k, In k pos -> - zlen l <= k < 0 ->
      exists v, Znth (part pos l) (zlen l + k) = Some v /\
        (forall i w, 0 <= i < zlen l + k -> Znth (part pos l) i = Some w -> (w <= v)%Qc) /\
        (forall i w, zlen l + k < i -> Znth (part pos l) i = Some w -> (v <= w)%Qc).

(** ** Sampling grids *)
Definition is_least (v : Qc) (P : Qc -> Prop) : Prop := P v /\ forall w, P w -> (v <= w)%Qc.
Definition is_greatest (v : Qc) (P : Qc -> Prop) : Prop := P v /\ forall w, P w -> (w <= v)%Qc.

(** Births and deaths / births / lifetimes occurring in dimension [q]. *)
Definition coordinate (q : fl) (X : list diagram) (v : Qc) : Prop :=
  exists x p, In x X /\ In p (rows_of q x) /\ (pb p = Fin v \/ pd p = Fin v).
Definition birth_value (q : fl) (X : list diagram) (v : Qc) : Prop :=
  exists x p, In x X /\ In p (rows_of q x) /\ pb p = Fin v.
Definition lifetime_value (q : fl) (X : list diagram) (v : Qc) : Prop :=
  exists x p b d, In x X /\ In p (rows_of q x) /\ pb p = Fin b /\ pd p = Fin d /\ v = (d - b)%Qc.

(** [n] equally spaced values from [lo] to [hi] and their spacing (NaN when
    there is a single value). *)
Definition is_grid (lo hi : Qc) (n : Z) (s : list Qc) (step : fl) : Prop :=
  zlen s = n /\ Znth s 0 = Some lo /\
  (n = 1 -> step = NaN) /\
  (1 < n -> step = Fin ((hi - lo) / qz (n - 1))%Qc /\ Znth s (n - 1) = Some hi /\
     forall i, 0 <= i < n -> Znth s i = Some (lo + qz i * ((hi - lo) / qz (n - 1)))%Qc).

(** The range of the grid: from the least to the greatest value [P] in that
    dimension; if they are equal the upper end is the greatest value over all
    dimensions. *)
Definition is_range (P Pall : Qc -> Prop) (lo hi : Qc) : Prop :=
  is_least lo P /\
  exists m, is_greatest m P /\ (m <> lo /\ hi = m \/ m = lo /\ is_greatest hi Pall).

(** ** Rasters *)
Definition clamp (lo hi v : Qc) : Qc := smax lo (smin hi v).
(** [v] lies in the k-th cell of a grid starting at [lo]. *)
Definition in_cell (lo step : Qc) (k : Z) (v : Qc) : bool :=
  Qcleb (lo + qz k * step)%Qc v && Qcltb v (lo + qz (k + 1) * step)%Qc.
(** Number of points in cell (i, j) (birth, death), after clamping to the range;
    points on the diagonal after clamping are not counted. *)
Fixpoint heat_count (lo hi step : Qc) (i j : Z) (x : list (Qc * Qc)) : Z :=
  match x with
  | [] => 0
  | (b, d) :: t =>
      let b' := clamp lo hi b in let d' := clamp lo hi d in
      (if negb (Qceqb b' d') && in_cell lo step i b' && in_cell lo step j d'
       then 1 else 0) + heat_count lo hi step i j t
  end.
(** Entry (i, j) of a 2D array. *)
Definition entry {A} (M : list (list A)) (i j : Z) : option A :=
  match Znth M i with Some r => Znth r j | None => None end.
Definition has_shape {A} (n m : Z) (M : list (list A)) : Prop :=
  zlen M = n /\ forall r, In r M -> zlen r = m.

(** A collection on which the vectorisations can be fitted: some diagram, a
    non-empty first diagram without NaN dimension, finite points, and the same
    number of rows of each dimension in all diagrams. *)
Definition trainable (X : list diagram) : Prop :=
  hd [] X <> [] /\ finite_points X /\
  forall q, In q (map pq (hd [] X)) -> isnan q = false /\ balanced q X.
(** The homology dimensions seen in fit, in increasing order. *)
Definition dimensions_of (X : list diagram) (dims : list fl) : Prop :=
  increasing dims /\ forall q, In q dims <-> In q (map pq (hd [] X)).
(** [s], [step] is the grid for dimension [q] when [P q] says which values occur. *)
Definition grid_of (P : fl -> Qc -> Prop) (dims : list fl) (n : Z) (q : fl)
  (s : list Qc) (step : fl) : Prop :=
  exists lo hi, is_range (P q) (fun v => exists q', In q' dims /\ P q' v) lo hi /\
                is_grid lo hi n s step.
(** A collection that can be transformed. *)
Definition transformable (dims : list fl) (Y : list diagram) : Prop :=
  Y <> [] /\ finite_points Y /\ forall q, In q dims -> balanced q Y.
(** The fitted dictionary dimension -> (sampling, step) of a one-axis
    vectorisation: keys are the dimensions of the first training diagram, in
    increasing order, values are the grids covering the coordinates. *)
Definition fitted_grids (n : Z) (X : list diagram) (g : list (fl * (list Qc * fl))) : Prop :=
  dimensions_of X (map fst g) /\
  forall q s step, In (q, (s, step)) g ->
    grid_of (fun q => coordinate q X) (map fst g) n q s step.
(** The same for persistence images: births on the first axis, lifetimes on the
    second. *)
Definition fitted_grids2 (n : Z) (X : list diagram)
  (g : list (fl * ((list Qc * fl) * (list Qc * fl)))) : Prop :=
  dimensions_of X (map fst g) /\
  forall q s0 step0 s1 step1, In (q, ((s0, step0), (s1, step1))) g ->
    grid_of (fun q => birth_value q X) (map fst g) n q s0 step0 /\
    grid_of (fun q => lifetime_value q X) (map fst g) n q s1 step1.

(** Persistence images: number of points in cell (i, j) in (birth, lifetime)
    coordinates after clamping; points whose clamped lifetime is 0 are not
    counted. *)
Fixpoint pi_count (lo0 hi0 step0 lo1 hi1 step1 : Qc) (i j : Z) (x : list (Qc * Qc)) : Z :=
  match x with
  | [] => 0
  | (b, d) :: t =>
      let b' := clamp lo0 hi0 b in let l' := clamp lo1 hi1 (d - b)%Qc in
      (if negb (Qceqb l' 0%Qc) && in_cell lo0 step0 i b' && in_cell lo1 step1 j l'
       then 1 else 0) + pi_count lo0 hi0 step0 lo1 hi1 step1 i j t
  end.
(** A filter of square images that keeps their shape. *)
Definition keeps_shape {P} (gauss : P -> list (list Qc) -> list (list Qc)) : Prop :=
  forall n p im, has_shape n n im -> has_shape n n (gauss p im).

(** [H] is the heat image of [x]: the points are rasterised into [raster],
    smoothed, and the smoothed image minus its transpose, divided by step^2, is
    read with the death axis pointing up. *)
Definition is_heat (gauss : Qc -> list (list Qc) -> list (list Qc)) (lo hi : Qc) (n : Z)
  (step sigma : Qc) (x : list (Qc * Qc)) (H : list (list Qc)) : Prop :=
  has_shape n n H /\
  (step = 0%Qc -> forall r c, 0 <= r < n -> 0 <= c < n -> entry H r c = Some 0%Qc) /\
  ((0 < step)%Qc -> exists raster, has_shape n n raster /\
     (forall i j, 0 <= i < n -> 0 <= j < n ->
        entry raster i j = Some (qz (heat_count lo hi step i j x))) /\
     forall r c, 0 <= r < n -> 0 <= c < n -> exists u v,
       let smoothed := gauss (smin (sigma / step) (qz (10 ^ 5 * n)))%Qc raster in
       entry smoothed c (n - 1 - r) = Some u /\
       entry smoothed (n - 1 - r) c = Some v /\
       entry H r c = Some ((u - v) / (step * step))%Qc).

(** [H] is the persistence image of [x]. *)
Definition is_persistence_image (gauss : Qc * Qc -> list (list Qc) -> list (list Qc))
  (lo0 hi0 lo1 hi1 : Qc) (n : Z) (step0 step1 sigma : Qc) (weights : list Qc)
  (x : list (Qc * Qc)) (H : list (list Qc)) : Prop :=
  has_shape n n H /\
  (step0 = 0%Qc \/ step1 = 0%Qc ->
     forall r c, 0 <= r < n -> 0 <= c < n -> entry H r c = Some 0%Qc) /\
  ((0 < step0)%Qc -> (0 < step1)%Qc -> exists raster, has_shape n n raster /\
     (forall i j w, 0 <= i < n -> 0 <= j < n -> Znth weights j = Some w ->
        entry raster i j = Some (qz (pi_count lo0 hi0 step0 lo1 hi1 step1 i j x) * w)%Qc) /\
     forall r c, 0 <= r < n -> 0 <= c < n -> exists u,
       entry (gauss (sigma / step0, sigma / step1)%Qc raster) c (n - 1 - r) = Some u /\
       entry H r c = Some (u / (step0 * step1))%Qc).
