(** Model of the vectorisations of persistence diagrams in
    gtda/diagrams/_metrics.py (betti_curves, landscapes, heats,
    persistence_images), gtda/diagrams/_utils.py (_sample_image, _bin) and of
    the transformers of gtda/diagrams/representations.py built on them.

    Coordinates of points, samplings and step sizes are exact rationals; points
    with infinite or NaN coordinates are not modelled here (see [fin_val]). *)
From Verif Require Import Np Fl DiagTypes DiagModel.
Open Scope Z_scope.

Notation qpt := (Qc * Qc)%type (only parsing).
Definition image : Type := list (list Qc).

(** The (birth, death) columns of a subdiagram ([remove_dim=True],
    diagrams/_utils.py lines 50-52) as rationals; coordinates are assumed
    finite. *)
Definition fin_val (x : fl) : Qc := match x with Fin q => q | _ => 0%Qc end.
Definition to_q (x : diagram) : list qpt :=
  map (fun p => (fin_val (pb p), fin_val (pd p))) x.

(** ** numpy primitives (external) *)
Definition Qcmax (x y : Qc) : Qc := if Qcleb x y then y else x.
Definition Qcmin (x y : Qc) : Qc := if Qcleb x y then x else y.
Definition Qcabs (x : Qc) : Qc := if Qcleb 0 x then x else (- x)%Qc.

(** [np.min] / [np.max]; ValueError on an empty array. *)
Definition q_min (l : list Qc) : res Qc :=
  match l with [] => Err ValueError | x :: t => Ok (fold_left Qcmin t x) end.
Definition q_max (l : list Qc) : res Qc :=
  match l with [] => Err ValueError | x :: t => Ok (fold_left Qcmax t x) end.

(** Column [j] of a 2D array and transposition of an array with [n] columns. *)
Definition col {A} (j : Z) (M : list (list A)) : list A :=
  flat_map (fun r => match Znth r j with Some v => [v] | None => [] end) M.
Definition transposeZ {A} (n : Z) (M : list (list A)) : list (list A) :=
  tabZ n (fun j => col j M).

(** [X[slice(a, b)]] *)
Definition take_slice {A} (s : Z * Z) (X : list A) : list A :=
  py_sub (Some (fst s)) (Some (snd s)) X.

(** [image[i, j] = v] with numpy's negative indices; IndexError outside. *)
Definition np_set2 {A} (M : list (list A)) (i j : Z) (v : A)
  : res (list (list A)) :=
  do r <- py_get M i;
  do _ <- py_get r j;
  let i' := if i <? 0 then i + zlen M else i in
  let j' := if j <? 0 then j + zlen r else j in
  Ok (set_at M i' (set_at r j' v)).

(** [np.rot90(M, k=1)] of an image with [n] columns: M.T[::-1]. *)
Definition rot90 {A} (n : Z) (M : list (list A)) : list (list A) :=
  rev (transposeZ n M).

(** [np.linspace(a, b, num, retstep=True)] for num >= 1. *)
Definition linspace (a b : Qc) (num : Z) : list Qc * fl :=
  if num =? 1 then ([a], NaN)
  else let step := ((b - a) / qz (num - 1))%Qc in
       (tabZ num (fun i => a + qz i * step)%Qc, Fin step).

(** ** The common loop: representations.py lines 161-168 (BettiCurve), 397-407,
    666-673, 913-926, 1137-1145 and _metrics.py lines 419-444
    (_parallel_amplitude).  Blocks for each dimension and even slice of the
    samples, concatenated, reshaped to (n_dimensions, n_samples, ...) and
    transposed.  [f dim] maps a batch of subdiagrams to one value per sample;
    joblib.Parallel returns the results in submission order; [n_jobs] is
    joblib's effective number of jobs. *)
Definition vectorise {V} (f : fl -> list (list qpt) -> res (list V))
  (X : list diagram) (dims : list fl) (n_jobs : Z) : res (list (list V)) :=
  do blocks <- mapM (fun ds =>
        do Xs <- subdiagrams (take_slice (snd ds) X) [fst ds];
        f (fst ds) (map to_q Xs))
     (flat_map (fun dim => map (fun s => (dim, s))
                               (gen_even_slices (zlen X) n_jobs)) dims);
  match blocks with
  | [] => Err ValueError
  | _ => do M <- np_reshape (zlen dims) (zlen X) (concat blocks);
         Ok (transposeZ (zlen X) M)
  end.

(** ** _metrics.py *)

(** betti_curves, lines 63-68. *)
Definition betti_curves (diagrams : list (list qpt)) (sampling : list Qc)
  : list (list Z) :=
  transposeZ (zlen diagrams)
    (map (fun s => map (fun x =>
        zlen (filter (fun p => Qcleb (fst p) s && Qcltb s (snd p)) x)) diagrams)
     sampling).

(** landscapes, lines 71-82.  [partition kths row] is
    [row.partition(kths)] along the last axis. *)
Definition tent_fiber (s : Qc) (p : qpt) : Qc :=
  let midpoint := ((snd p + fst p) / qz 2)%Qc in
  let height := ((snd p - fst p) / qz 2)%Qc in
  Qcmax (- Qcabs (s - midpoint) + height)%Qc 0%Qc.
Definition n_points_of {A} (diagrams : list (list A)) : Z :=
  match diagrams with x :: _ => zlen x | [] => 0 end.
Definition landscapes (partition : list Z -> list Qc -> list Qc)
  (diagrams : list (list qpt)) (sampling : list Qc) (n_layers : Z)
  : list image :=
  let n_points := n_points_of diagrams in
  let fibers := map (fun s => map (fun x => map (tent_fiber s) x) diagrams)
                    sampling in
  let top := Z.min n_layers n_points in
  let top_pos := tabZ top (fun k => - top + k) in
  let fibers := map (map (partition top_pos)) fibers in
  let fibers := map (map (fun r => rev (py_sub (Some (- n_layers)) None r)))
                    fibers in
  (* np.transpose(fibers, (1, 2, 0)) *)
  let fibers := tabZ (zlen diagrams) (fun i =>
                  transposeZ top (col i fibers)) in
  map (fun f => f ++ repeat (repeat 0%Qc (length sampling))
                            (Z.to_nat (Z.max 0 (n_layers - n_points))))
      fibers.

(** ** diagrams/_utils.py, _sample_image, lines 55-60. *)
Definition pair_eqb (a b : Z * Z) : bool :=
  (fst a =? fst b) && (snd a =? snd b).
Fixpoint unique_counts (l : list (Z * Z)) : list (Z * Z * Z) :=
  match l with
  | [] => []
  | x :: t => (x, 1 + zlen (filter (pair_eqb x) t))
              :: filter (fun uc => negb (pair_eqb x (fst uc))) (unique_counts t)
  end.
Fixpoint write_all (im : image) (ucs : list (Z * Z * Z)) : res image :=
  match ucs with
  | [] => Ok im
  | (u, c) :: t => do im' <- np_set2 im (fst u) (snd u) (qz c); write_all im' t
  end.
Definition sample_image (im : image) (coords : list (Z * Z)) : res image :=
  write_all im (unique_counts coords).

Definition zeros (n : Z) : image := tabZ n (fun _ => tabZ n (fun _ => 0%Qc)).

(** [diagrams[diagrams < lo] = lo; diagrams[diagrams > hi] = hi] *)
Definition clip_q (lo hi x : Qc) : Qc :=
  let x := if Qcltb x lo then lo else x in
  if Qcltb hi x then hi else x.
(** [np.array(x, dtype=int)]: truncation towards zero. *)
Definition trunc (q : Qc) : Z := Z.quot (Qnum q) (Zpos (Qden q)).

Definition image_map2 (f : Qc -> Qc -> Qc) (A B : image) : image :=
  map (fun ab => map (fun xy => f (fst xy) (snd xy)) (combine (fst ab) (snd ab)))
      (combine A B).

(** heats, lines 85-115, on one diagram.  [gauss sigma im] is
    [scipy.ndimage.gaussian_filter(im, sigma, mode="constant")]; [step] is the
    step size, [sampling] has at least one value. *)
Definition heat_pixels (first last step : Qc) (x : list qpt) : list (Z * Z) :=
  let x := map (fun p => (clip_q first last (fst p), clip_q first last (snd p))) x in
  map (fun p => (trunc ((fst p - first) / step)%Qc,
                 trunc ((snd p - first) / step)%Qc))
      (filter (fun p => negb (Qceqb (snd p) (fst p))) x).
Definition heat (gauss : Qc -> image -> image) (sampling : list Qc) (step sigma : Qc)
  (x : list qpt) : res image :=
  let n := zlen sampling in
  if Qceqb step 0%Qc then Ok (zeros n) else
  do first <- py_get sampling 0;
  do last <- py_get sampling (-1);
  let sigma_pixel := Qcmin (sigma / step)%Qc (qz (10 ^ 5 * n)) in
  do im <- sample_image (zeros n) (heat_pixels first last step x);
  let im := gauss sigma_pixel im in
  let im := image_map2 Qcminus im (transposeZ n im) in
  let im := map (map (fun v => v / (step * step))%Qc) im in
  Ok (rot90 n im).
Definition heats gauss (diagrams : list (list qpt)) sampling step sigma
  : res (list image) :=
  mapM (heat gauss sampling step sigma) diagrams.

(** persistence_images, lines 118-156, on one diagram.  [sampling] lists pairs
    (birth, persistence), [step] has two components, [gauss] takes the two
    components of sigma in pixel units, [weights] has one value per
    persistence sampling. *)
Definition pi_pixels (first last step : qpt) (x : list qpt) : list (Z * Z) :=
  let x := map (fun p => (fst p, snd p - fst p)%Qc) x in
  let x := map (fun p => (clip_q (fst first) (fst last) (fst p),
                          clip_q (snd first) (snd last) (snd p))) x in
  map (fun p => (trunc ((fst p - fst first) / fst step)%Qc,
                 trunc ((snd p - snd first) / snd step)%Qc))
      (filter (fun p => negb (Qceqb (snd p) 0%Qc)) x).
Definition persistence_image (gauss : qpt -> image -> image)
  (sampling : list qpt) (step : qpt) (sigma : Qc) (weights : list Qc)
  (x : list qpt) : res image :=
  let n := zlen sampling in
  if Qceqb (fst step) 0%Qc || Qceqb (snd step) 0%Qc then Ok (zeros n) else
  do first <- py_get sampling 0;
  do last <- py_get sampling (-1);
  let sigma_pixel := (sigma / fst step, sigma / snd step)%Qc in
  do im <- sample_image (zeros n) (pi_pixels first last step x);
  let im := map (fun r => map (fun vw => (fst vw * snd vw)%Qc) (combine r weights)) im in
  let im := gauss sigma_pixel im in
  let im := rot90 n im in
  Ok (map (map (fun v => v / (fst step * snd step))%Qc) im).
Definition persistence_images gauss (diagrams : list (list qpt)) sampling step
  sigma weights : res (list image) :=
  mapM (persistence_image gauss sampling step sigma weights) diagrams.

(** ** diagrams/_utils.py, _bin, lines 125-167.  [pi] says whether the metric is
    'persistence_image' (axes treated separately) or one of 'landscape',
    'betti', 'heat', 'silhouette'.  Dictionaries are association lists in the
    order of [dims]. *)
Definition bin_range (pi : bool) (X : list diagram) (dim : fl) : res (qpt * qpt) :=
  do sub <- subdiagrams X [dim];
  let pts := concat (map to_q sub) in
  let pts := if pi then map (fun p => (fst p, snd p - fst p)%Qc) pts else pts in
  do lo0 <- q_min (map fst pts);
  do lo1 <- q_min (map snd pts);
  do hi0 <- q_max (map fst pts);
  do hi1 <- q_max (map snd pts);
  if pi then Ok ((lo0, lo1), (hi0, hi1))
  else let lo := Qcmin lo0 lo1 in let hi := Qcmax hi0 hi1 in
       Ok ((lo, lo), (hi, hi)).
Definition bin_axes (pi : bool) (n_bins : Z) (dims : list fl) (X : list diagram)
  : res (list (fl * ((list Qc * fl) * (list Qc * fl)))) :=
  do ranges <- mapM (bin_range pi X) dims;
  do g0 <- q_max (map (fun r => fst (snd r)) ranges);
  do g1 <- q_max (map (fun r => snd (snd r)) ranges);
  Ok (map (fun dr =>
        let '(dim, (lo, hi)) := dr in
        let hi0 := if Qceqb (fst hi) (fst lo) then g0 else fst hi in
        let hi1 := if Qceqb (snd hi) (snd lo) then g1 else snd hi in
        (dim, (linspace (fst lo) hi0 n_bins, linspace (snd lo) hi1 n_bins)))
      (combine dims ranges)).
(** One-axis metrics: samplings[dim][:, [0], None] and step_sizes[dim][0]. *)
Definition bin (n_bins : Z) (dims : list fl) (X : list diagram)
  : res (list (fl * (list Qc * fl))) :=
  do b <- bin_axes false n_bins dims X;
  Ok (map (fun e => (fst e, fst (snd e))) b).

(** Dictionary lookup; KeyError when absent. *)
Fixpoint dict_get {V} (d : list (fl * V)) (k : fl) : res V :=
  match d with
  | [] => Err KeyError
  | (k', v) :: t => if feq k' k then Ok v else dict_get t k
  end.

(** ** representations.py: fit(X) followed by transform(Y). *)

(** BettiCurve, lines 112-168. *)
Definition betti_curve (n_bins n_jobs : Z) (X Y : list diagram)
  : res (list (list (list Z))) :=
  do dims <- first_dims X;
  do samplings <- bin n_bins dims X;
  vectorise (fun dim batch => do s <- dict_get samplings dim;
                              Ok (betti_curves batch (fst s)))
            Y dims n_jobs.

(** PersistenceLandscape, lines 345-409; the final reshape merges the dimension
    and layer axes. *)
Definition persistence_landscape partition (n_layers n_bins n_jobs : Z)
  (X Y : list diagram) : res (list image) :=
  do dims <- first_dims X;
  do samplings <- bin n_bins dims X;
  do Yt <- vectorise (fun dim batch => do s <- dict_get samplings dim;
                        Ok (landscapes partition batch (fst s) n_layers))
                     Y dims n_jobs;
  Ok (map (@concat (list Qc)) Yt).

(** HeatKernel, lines 615-674.  With a step size NaN (n_bins = 1) the code
    computes with NaN; not modelled (ValueError stands for it). *)
Definition heat_kernel gauss (sigma : Qc) (n_bins n_jobs : Z) (X Y : list diagram)
  : res (list (list image)) :=
  do dims <- first_dims X;
  do samplings <- bin n_bins dims X;
  vectorise (fun dim batch => do s <- dict_get samplings dim;
               match snd s with
               | Fin step => heats gauss batch (fst s) step sigma
               | _ => Err ValueError
               end)
            Y dims n_jobs.

(** PersistenceImage, lines 854-927; [weight_function] maps the persistence
    samplings to weights. *)
Definition persistence_image_transform gauss (weight_function : list Qc -> list Qc)
  (sigma : Qc) (n_bins n_jobs : Z) (X Y : list diagram)
  : res (list (list image)) :=
  do dims <- first_dims X;
  do samplings <- bin_axes true n_bins dims X;
  vectorise (fun dim batch => do s <- dict_get samplings dim;
               match snd (fst s), snd (snd s) with
               | Fin step0, Fin step1 =>
                   persistence_images gauss batch
                     (combine (fst (fst s)) (fst (snd s))) (step0, step1) sigma
                     (weight_function (fst (snd s)))
               | _, _ => Err ValueError
               end)
            Y dims n_jobs.
