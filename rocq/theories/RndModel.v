(** Rounding: parts of gtda/diagrams and gtda/mapper/cover.py in floating-point arithmetic.  The other models are over exact numbers.  Here numbers are reals and
    every operation is followed by a rounding [rnd]; an int is converted exactly.  Values too large
    for a format, NaN and infinities are left out, except as outer limits of covers. *)
From Coq Require Import Reals.
From Verif Require Import Np.
Open Scope R_scope.

Section Rounding.
Variable rnd : R -> R.

(** ** numpy.linspace (external)
    [delta = stop - start; step = delta / div; y = arange(num)]; if some step is zero,
    [y = y / div * delta], otherwise [y = y * step]; [y += start; y[-1] = stop].  [zero]: a step is zero
    (of any axis, when start and stop are arrays). *)
Definition grid_step (a b : R) (num : Z) : R := rnd (rnd (b - a) / IZR (num - 1)).
Definition grid_offset (zero : bool) (a b : R) (num i : Z) : R :=
  if zero then rnd (rnd (IZR i / IZR (num - 1)) * rnd (b - a))
  else rnd (IZR i * grid_step a b num).
Definition grid (zero : bool) (a b : R) (num : Z) : list R :=
  if (num =? 1)%Z then [a]
  else tabZ num (fun i => if (i =? num - 1)%Z then b else rnd (grid_offset zero a b num i + a)).
Definition is_zero (x : R) : bool := if Req_EM_T x 0 then true else false.
Definition grid1 (a b : R) (num : Z) : list R := grid (is_zero (grid_step a b num)) a b num.
(** diagrams/_utils.py lines 157-162, for the two axes of one dimension *)
Definition grid2 (a b : R * R) (num : Z) : list R * list R :=
  let zero := is_zero (grid_step (fst a) (fst b) num) || is_zero (grid_step (snd a) (snd b) num) in
  (grid zero (fst a) (fst b) num, grid zero (snd a) (snd b) num).

(** ** Diagrams *)
(** diagrams/preprocessing.py line 295 (Scaler.transform) and line 316 (inverse_transform) *)
Definition scale_point (s : R) (p : R * R) : R * R := (rnd (fst p / s), rnd (snd p / s)).
Definition unscale_point (s : R) (p : R * R) : R * R := (rnd (fst p * s), rnd (snd p * s)).
(** diagrams/_utils.py line 92: the points kept by Filtering *)
Definition survives (cutoff : R) (p : R * R) : bool :=
  if Rlt_dec cutoff (rnd (snd p - fst p)) then true else false.
(** diagrams/_metrics.py lines 73-75 *)
Definition fiber (s : R) (p : R * R) : R :=
  let midpoint := rnd (rnd (snd p + fst p) / 2) in
  let height := rnd (rnd (snd p - fst p) / 2) in
  Rmax (rnd (- Rabs (rnd (s - midpoint)) + height)) 0.

(** ** mapper/cover.py lines 320-337 _cover_limits *)
Definition limits (a b : R) (n : Z) (ov : R) : list R * list R :=
  let total_len := rnd (b - a) in
  let interval_len := rnd (total_len / rnd (IZR n - rnd (IZR (n - 1) * ov))) in
  let last := rnd (a + rnd (rnd (IZR (n - 1) * rnd (1 - ov)) * interval_len)) in
  let left := grid1 a last n in
  (left, map (fun l => rnd (l + interval_len)) left).
(** cover.py lines 153-154 with the limits of lines 296-298: [x] is in set [i] of the uniform cover of
    data with least value [a] and greatest value [b]; the first left limit is -inf and the last right
    limit is inf. *)
Definition in_uniform_set (a b : R) (n : Z) (ov : R) (x : R) (i : Z) : Prop :=
  exists l r, Znth (fst (limits a b n ov)) i = Some l /\ Znth (snd (limits a b n ov)) i = Some r /\
    (i = 0%Z \/ l < x) /\ (i = (n - 1)%Z \/ x < r).
(** cover.py lines 199-207: the sample of rank [x] (counted from 0; [k] ranks) is in set [i] of the
    balanced cover *)
Definition in_balanced_set (k n : Z) (ov : R) (x : Z) (i : Z) : Prop :=
  let lim := limits (- / 2) (rnd (IZR (k - 1) + / 2)) n ov in
  exists l r, Znth (fst lim) i = Some l /\ Znth (snd lim) i = Some r /\ l < IZR x < r.
End Rounding.
