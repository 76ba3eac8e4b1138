(** Model of the silhouettes, amplitudes and pairwise distances of
    gtda/diagrams/_metrics.py and of the transformers Silhouette
    (representations.py), Amplitude (features.py) and PairwiseDistance
    (distance.py).

    Arithmetic is exact: curves are rational and are read as real numbers [qr q]
    before powers and norms are taken.  A curve is an [option (list R)], [None]
    when it is filled with NaN; a single value is an [option R], [None] for NaN.
    Deaths are assumed not to precede births (check_diagrams rejects the
    others). *)
From Coq Require Import Reals.
From Verif Require Import Np Fl DiagTypes DiagModel VecModel RNp.
Open Scope Z_scope.

Definition curve : Type := option (list R).

(** The external algorithms: ndarray.partition, the two forms of
    scipy.ndimage.gaussian_filter, and the compiled bottleneck_distance and
    wasserstein_distance (their accuracy parameter delta is fixed). *)
Record externals : Type := {
  x_partition : list Z -> list Qc -> list Qc;
  x_gauss1 : Qc -> image -> image;
  x_gauss2 : qpt -> image -> image;
  x_bottleneck : list qpt -> list qpt -> R;
  x_wasserstein : R -> list qpt -> list qpt -> R }.

(** The metrics and their parameters (_metrics.py lines 18-60): the exponent p, the number of layers, sigma, the
    weight function, the power.  The number of bins is a separate argument. *)
Inductive metric : Type :=
  | Bottleneck
  | Wasserstein (p : R)
  | Betti (p : expo)
  | Landscape (p : expo) (n_layers : Z)
  | Heat (p : expo) (sigma : Qc)
  | PersImage (p : expo) (sigma : Qc) (weight_function : list Qc -> list Qc)
  | Silhouette (p power : expo).

(** The value a fitted dictionary stores for one dimension: sampling and step
    size of each of the two axes. *)
Notation grid := ((list Qc * fl) * (list Qc * fl))%type (only parsing).

(** ** silhouettes, lines 159-175, on one diagram. *)
Definition lifetime (x : qpt) : R := qr (snd x - fst x)%Qc.
(** [w ** power]; for an infinite power the weights are at most 1. *)
Definition power_of (w : R) (power : expo) : R :=
  match power with
  | Pfin a => rpow w a
  | Pinf => if Req_EM_T w 1 then 1 else 0
  end.
Definition large_power (power : expo) : bool :=
  match power with
  | Pfin a => if Rlt_dec 8 a then true else false
  | Pinf => true
  end.
Definition silhouette (sampling : list Qc) (power : expo) (x : list qpt)
  : res curve :=
  let finish (weights : list R) : list R :=
    let weights := map (fun w => power_of w power) weights in
    let total := rsum weights in
    map (fun s =>
      let num := rsum (map (fun wp => fst wp * qr (tent_fiber s (snd wp)))%R
                           (combine weights x)) in
      if Req_EM_T total 0 then 0%R else (num / total)%R) sampling in
  let weights := map lifetime x in
  if large_power power then
    match weights with
    | [] => Err ValueError
    | _ => let m := rmax weights in
           if Req_EM_T m 0 then Ok None
           else Ok (Some (finish (map (fun w => w / m)%R weights)))
    end
  else Ok (Some (finish weights)).
Definition silhouettes (diagrams : list (list qpt)) (sampling : list Qc)
  (power : expo) : res (list curve) :=
  mapM (silhouette sampling power) diagrams.

(** ** Distances between vectorisations. *)

(** [step_size ** (num / p)]; the step size is NaN for a single bin, and
    NaN ** 0 = 1. *)
Definition step_factor (step : fl) (num : R) (p : expo) : option R :=
  match p, step with
  | Pinf, _ => Some 1%R
  | Pfin p, Fin s => Some (rpow (qr s) (num / p))
  | Pfin _, _ => None
  end.
(** [np.product(step_size) ** (1 / p)] *)
Definition step_factor2 (s0 s1 : fl) (p : expo) : option R :=
  match p, s0, s1 with
  | Pinf, _, _ => Some 1%R
  | Pfin p, Fin s0, Fin s1 => Some (rpow (qr (s0 * s1)%Qc) (1 / p))
  | Pfin _, _, _ => None
  end.

Definition scale (factor : option R) (r : R) : option R :=
  match factor with Some c => Some (r * c)%R | None => None end.

(** scipy's cdist and pdist with "minkowski", scaled; squareform.  Distances
    involving a NaN curve are taken to be NaN. *)
Definition dist1 (p : expo) (factor : option R) (u v : curve) : option R :=
  match u, v with
  | Some u, Some v => scale factor (mink p u v)
  | _, _ => None
  end.
Definition cdist p factor (U V : list curve) : list (list (option R)) :=
  map (fun u => map (dist1 p factor u) V) U.
Definition squareform_pdist p factor (U : list curve) : list (list (option R)) :=
  tabZ (zlen U) (fun i => tabZ (zlen U) (fun j =>
    if i =? j then Some 0%R
    else match Znth U (Z.min i j), Znth U (Z.max i j) with
         | Some u, Some v => dist1 p factor u v
         | _, _ => None
         end)).

(** [np.array_equal] of two batches of subdiagrams. *)
Fixpoint list_eqb {A} (eqb : A -> A -> bool) (l r : list A) : bool :=
  match l, r with
  | [], [] => true
  | a :: l, b :: r => eqb a b && list_eqb eqb l r
  | _, _ => false
  end.
Definition array_equal (d1 d2 : list (list qpt)) : bool :=
  list_eqb (list_eqb (fun a b => Qceqb (fst a) (fst b) && Qceqb (snd a) (snd b)))
           d1 d2.

(** betti_distances, lines 192-205. *)
Definition betti_vec (d : list (list qpt)) (sampling : list Qc) : list curve :=
  map (fun c => Some (map IZR c)) (betti_curves d sampling).
Definition betti_distances (d1 d2 : list (list qpt)) (sampling : list Qc)
  (step : fl) (p : expo) : res (list (list (option R))) :=
  let factor := step_factor step 1 p in
  let are_arrays_equal := array_equal d1 d2 in
  let v1 := betti_vec d1 sampling in
  if are_arrays_equal then Ok (squareform_pdist p factor v1)
  else Ok (cdist p factor v1 (betti_vec d2 sampling)).

(** landscape_distances, lines 208-230. *)
Definition flat (im : image) : curve := Some (map qr (concat im)).
Definition landscape_distances partition (d1 d2 : list (list qpt))
  (sampling : list Qc) (step : fl) (p : expo) (n_layers : Z)
  : res (list (list (option R))) :=
  let factor := step_factor step 1 p in
  let n_layers_1 := Z.min n_layers (n_points_of d1) in
  if array_equal d1 d2 then
    let ls_1 := map flat (landscapes partition d1 sampling n_layers_1) in
    Ok (squareform_pdist p factor ls_1)
  else
    let n_layers_2 := Z.min n_layers (n_points_of d2) in
    let n_layers := Z.max n_layers_1 n_layers_2 in
    let ls_1 := map flat (landscapes partition d1 sampling n_layers) in
    let ls_2 := map flat (landscapes partition d2 sampling n_layers) in
    Ok (cdist p factor ls_1 ls_2).

(** heat_distances, lines 233-249 (a NaN step size is not modelled, see
    [heat_kernel]). *)
Definition heat_distances gauss (d1 d2 : list (list qpt)) (sampling : list Qc)
  (step : fl) (sigma : Qc) (p : expo) : res (list (list (option R))) :=
  match step with
  | Fin s =>
      let factor := step_factor step 2 p in
      let are_arrays_equal := array_equal d1 d2 in
      do h1 <- heats gauss d1 sampling s sigma;
      if are_arrays_equal then Ok (squareform_pdist p factor (map flat h1))
      else do h2 <- heats gauss d2 sampling s sigma;
           Ok (cdist p factor (map flat h1) (map flat h2))
  | _ => Err ValueError
  end.

(** persistence_image_distances, lines 252-277. *)
Definition persistence_image_distances gauss (d1 d2 : list (list qpt)) (g : grid)
  (sigma : Qc) (weight_function : list Qc -> list Qc) (p : expo)
  : res (list (list (option R))) :=
  match snd (fst g), snd (snd g) with
  | Fin s0, Fin s1 =>
      let sampling := combine (fst (fst g)) (fst (snd g)) in
      let weights := weight_function (fst (snd g)) in
      let factor := step_factor2 (Fin s0) (Fin s1) p in
      let are_arrays_equal := array_equal d1 d2 in
      do i1 <- persistence_images gauss d1 sampling (s0, s1) sigma weights;
      if are_arrays_equal then Ok (squareform_pdist p factor (map flat i1))
      else do i2 <- persistence_images gauss d2 sampling (s0, s1) sigma weights;
           Ok (cdist p factor (map flat i1) (map flat i2))
  | _, _ => Err ValueError
  end.

(** silhouette_distances, lines 280-293. *)
Definition silhouette_distances (d1 d2 : list (list qpt)) (sampling : list Qc)
  (step : fl) (power p : expo) : res (list (list (option R))) :=
  let factor := step_factor step 1 p in
  let are_arrays_equal := array_equal d1 d2 in
  do s1 <- silhouettes d1 sampling power;
  if are_arrays_equal then Ok (squareform_pdist p factor s1)
  else do s2 <- silhouettes d2 sampling power;
       Ok (cdist p factor s1 s2).

(** bottleneck_distances / wasserstein_distances, lines 178-189. *)
Definition drop_diagonal (x : list qpt) : list qpt :=
  filter (fun p => negb (Qceqb (fst p) (snd p))) x.
Definition point_distances (f : list qpt -> list qpt -> R)
  (d1 d2 : list (list qpt)) : res (list (list (option R))) :=
  Ok (map (fun x => map (fun y => Some (f (drop_diagonal x) (drop_diagonal y)))
                        d2) d1).

(** implemented_metric_recipes, lines 296-304. *)
Definition distances (E : externals) (m : metric) (g : grid)
  (d1 d2 : list (list qpt)) : res (list (list (option R))) :=
  match m with
  | Bottleneck => point_distances (x_bottleneck E) d1 d2
  | Wasserstein p => point_distances (x_wasserstein E p) d1 d2
  | Betti p => betti_distances d1 d2 (fst (fst g)) (snd (fst g)) p
  | Landscape p n_layers =>
      landscape_distances (x_partition E) d1 d2 (fst (fst g)) (snd (fst g)) p
        n_layers
  | Heat p sigma =>
      heat_distances (x_gauss1 E) d1 d2 (fst (fst g)) (snd (fst g)) sigma p
  | PersImage p sigma wf =>
      persistence_image_distances (x_gauss2 E) d1 d2 g sigma wf p
  | Silhouette p power =>
      silhouette_distances d1 d2 (fst (fst g)) (snd (fst g)) power p
  end.

(** ** _parallel_pairwise, lines 307-338.  One block per dimension and even slice
    of X2, concatenated on axis 1, cut into one matrix per dimension and
    stacked on the last axis. *)
Definition parallel_pairwise {V}
  (f : fl -> list (list qpt) -> list (list qpt) -> res (list (list V)))
  (X1 X2 : list diagram) (dims : list fl) (n_jobs : Z)
  : res (list (list (list V))) :=
  let n_columns := zlen X2 in
  do blocks <- mapM (fun ds =>
        do A <- subdiagrams X1 [fst ds];
        do B <- subdiagrams (take_slice (snd ds) X2) [fst ds];
        f (fst ds) (map to_q A) (map to_q B))
     (flat_map (fun dim => map (fun s => (dim, s))
                               (gen_even_slices n_columns n_jobs)) dims);
  match blocks with
  | [] => Err ValueError
  | _ =>
      let M := hcat (zlen X1) blocks in
      let mats := tabZ (zlen dims) (fun i =>
        map (py_sub (Some (i * n_columns)) (Some ((i + 1) * n_columns))) M) in
      (* np.stack(mats, axis=2) *)
      Ok (tabZ (zlen X1) (fun r =>
            transposeZ n_columns (flat_map (fun m =>
              match Znth m r with Some row => [row] | None => [] end) mats)))
  end.

(** ** Amplitudes, lines 341-416. *)
Definition half_lifetimes (x : list qpt) : list R :=
  map (fun p => qr ((snd p - fst p) / qz 2)%Qc) x.
(** [np.linalg.norm(v, axis=1, ord=p)] followed by the scaling. *)
Definition norms (p : expo) (factor : option R) (V : list curve)
  : res (list (option R)) :=
  mapM (fun v => match v with
                 | None => Ok None
                 | Some v => do r <- np_norm p v; Ok (scale factor r)
                 end) V.
Definition amplitudes (E : externals) (m : metric) (g : grid)
  (d : list (list qpt)) : res (list (option R)) :=
  match m with
  | Bottleneck => norms Pinf (Some 1%R) (map (fun x => Some (half_lifetimes x)) d)
  | Wasserstein p =>
      norms (Pfin p) (Some 1%R) (map (fun x => Some (half_lifetimes x)) d)
  | Betti p => norms p (step_factor (snd (fst g)) 1 p) (betti_vec d (fst (fst g)))
  | Landscape p n_layers =>
      norms p (step_factor (snd (fst g)) 1 p)
        (map flat (landscapes (x_partition E) d (fst (fst g)) n_layers))
  | Heat p sigma =>
      match snd (fst g) with
      | Fin s => do h <- heats (x_gauss1 E) d (fst (fst g)) s sigma;
                 norms p (step_factor (Fin s) 2 p) (map flat h)
      | _ => Err ValueError
      end
  | PersImage p sigma wf =>
      match snd (fst g), snd (snd g) with
      | Fin s0, Fin s1 =>
          do i <- persistence_images (x_gauss2 E) d
                    (combine (fst (fst g)) (fst (snd g))) (s0, s1) sigma
                    (wf (fst (snd g)));
          norms p (step_factor2 (Fin s0) (Fin s1) p) (map flat i)
      | _, _ => Err ValueError
      end
  | Silhouette p power =>
      do s <- silhouettes d (fst (fst g)) power;
      norms p (step_factor (snd (fst g)) 1 p) s
  end.

(** ** The transformers: fit(X) followed by transform(Y). *)

(** distance.py lines 171-201, features.py lines 330-359: dimensions and grids.
    The grids of bottleneck and wasserstein are computed but never used. *)
Definition uses_lifetimes (m : metric) : bool :=
  match m with PersImage _ _ _ => true | _ => false end.
Definition fit_metric (m : metric) (n_bins : Z) (X : list diagram)
  : res (list fl * list (fl * grid)) :=
  do dims <- first_dims X;
  do samplings <- bin_axes (uses_lifetimes m) n_bins dims X;
  Ok (dims, samplings).

(** PairwiseDistance with [order=None], distance.py lines 232-238. *)
Definition pairwise_distance E (m : metric) (n_bins n_jobs : Z)
  (X Y : list diagram) : res (list (list (list (option R)))) :=
  do fitted <- fit_metric m n_bins X;
  parallel_pairwise (fun dim A B => do g <- dict_get (snd fitted) dim;
                                    distances E m g A B)
    Y X (fst fitted) n_jobs.

(** Amplitude with [order=None], features.py lines 387-393 and _metrics.py lines
    419-444. *)
Definition amplitude E (m : metric) (n_bins n_jobs : Z) (X Y : list diagram)
  : res (list (list (option R))) :=
  do fitted <- fit_metric m n_bins X;
  vectorise (fun dim batch => do g <- dict_get (snd fitted) dim;
                              amplitudes E m g batch)
    Y (fst fitted) n_jobs.

(** [np.linalg.norm(..., ord=order)] along the last axis (distance.py line 240,
    features.py line 395): NaN if a component is. *)
Definition all_some (v : list (option R)) : option (list R) :=
  fold_right (fun x acc => match x, acc with
                           | Some x, Some acc => Some (x :: acc)
                           | _, _ => None
                           end) (Some []) v.
Definition combine_order (order : expo) (v : list (option R)) : option R :=
  match all_some v with Some v => Some (norm order v) | None => None end.
Definition pairwise_distance_order E m (order : expo) n_bins n_jobs X Y
  : res (list (list (option R))) :=
  do D <- pairwise_distance E m n_bins n_jobs X Y;
  Ok (map (map (combine_order order)) D).
Definition amplitude_order E m (order : expo) n_bins n_jobs X Y
  : res (list (option R)) :=
  do A <- amplitude E m n_bins n_jobs X Y;
  Ok (map (combine_order order) A).

(** Silhouette, representations.py lines 1085-1145. *)
Definition silhouette_transform (power : expo) (n_bins n_jobs : Z)
  (X Y : list diagram) : res (list (list curve)) :=
  do dims <- first_dims X;
  do samplings <- bin n_bins dims X;
  vectorise (fun dim batch => do s <- dict_get samplings dim;
                              silhouettes batch (fst s) power)
            Y dims n_jobs.
