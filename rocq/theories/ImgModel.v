(** Model of gtda/images/_utils.py, of the dilation, erosion and signed distance
    filtrations in gtda/images/filtrations.py, and of
    gtda/images/preprocessing.py.  A collection of images is the list of its
    samples, which all have the same shape.  Pixels of images to be dilated are
    integers; [X * 1.] and boolean arithmetic are arithmetic on integers.  NaN
    and infinite pixels are rejected by check_array and not modelled. *)
From Verif Require Import Np Nd Fl VecModel.
Open Scope Z_scope.

Definition b2z (b : bool) : Z := if b then 1 else 0.
Definition nonzero (v : Z) : bool := negb (v =? 0).

(** [range(a, b)] *)
Definition py_range (a b : Z) : list Z := map (fun i => a + i) (arange (b - a)).

(** scipy.ndimage.binary_dilation with the default structure (the cross) and
    border value 0: a pixel is set when it or one of its neighbours along an axis
    is set. *)
Fixpoint steps (idx : list Z) : list (list Z) :=
  match idx with
  | [] => []
  | i :: t => ((i - 1) :: t) :: ((i + 1) :: t) :: map (cons i) (steps t)
  end.
Definition binary_dilation (x : nd Z) : nd bool :=
  mk (nshape x) (fun idx =>
    existsb (fun j => match nget x j with Some v => nonzero v | None => false end)
            (idx :: steps idx)).

(** images/_utils.py, _dilate, lines 8-18: the loop stops when no image of the
    batch changes. *)
Fixpoint dilate_loop (its : list Z) (min_value : Z) (X : list (nd Z)) : list (nd Z) :=
  match its with
  | [] => X
  | iteration :: its =>
      let Xtemp := map binary_dilation X in
      let Xnew := map (fun xt => nzip (fun x t => x + b2z t =? 1) (fst xt) (snd xt))
                      (combine X Xtemp) in
      if existsb nany Xnew then
        dilate_loop its min_value
          (map (fun xn => nzip (fun x n => if n : bool then iteration + min_value else x)
                               (fst xn) (snd xn)) (combine X Xnew))
      else X
  end.
Definition dilate (X : list (nd Z)) (min_iteration max_iteration min_value max_value : Z)
  : list (nd Z) :=
  dilate_loop (py_range min_iteration (Z.min max_iteration max_value + 1)) min_value X.
(** Lines 21-23. *)
Definition logical_not (x : nd Z) : nd Z := nmap (fun v => b2z (v =? 0)) x.
Definition erode (X : list (nd Z)) (min_iteration max_iteration min_value max_value : Z)
  : list (nd Z) :=
  dilate (map logical_not X) min_iteration max_iteration min_value max_value.

(** Parallel(...)(delayed(f)(X[s]) for s in gen_even_slices(...)) followed by
    np.concatenate; an empty collection is a ValueError of check_array. *)
Definition parallel {A B} (f : list A -> res (list B)) (n_jobs : Z) (X : list A)
  : res (list B) :=
  match X with
  | [] => Err ValueError
  | _ => do blocks <- mapM (fun s => f (take_slice s X)) (gen_even_slices (zlen X) n_jobs);
         Ok (concat blocks)
  end.
(** check_array and the check of the number of dimensions in every fit: images
    have 1, 2 or 3 dimensions. *)
Definition fit_shape {A} (X : list (nd A)) : res (list Z) :=
  match X with
  | [] => Err ValueError
  | x :: _ => if (zlen (nshape x) <? 1) || (3 <? zlen (nshape x)) then Err ValueError
              else Ok (nshape x)
  end.

(** ** filtrations.py, DilationFiltration, ErosionFiltration and
    SignedDistanceFiltration: fit, lines 561-576, 755-770 and 957-972. *)
Definition fit_iterations (n_iterations : option Z) (X : list (nd Z)) : res (Z * Z) :=
  do s <- fit_shape X;
  let max_value := fold_right Z.add 0 s in
  match n_iterations with
  | None => Ok (max_value, max_value)
  | Some n => if n <? 1 then Err ValueError else Ok (n, max_value)
  end.
(** _calculate_dilation, lines 530-536. *)
Definition calculate_dilation (n_iterations max_value : Z) (X : list (nd Z)) : list (nd Z) :=
  map (nmap (fun v => if v =? 0 then max_value else v - 1))
      (dilate X 1 n_iterations 1 max_value).
Definition dilation_filtration (n_iterations : option Z) (n_jobs : Z)
  (X Y : list (nd Z)) : res (list (nd Z)) :=
  do f <- fit_iterations n_iterations X;
  parallel (fun b => Ok (calculate_dilation (fst f) (snd f) b)) n_jobs Y.
(** _calculate_erosion, lines 724-730. *)
Definition calculate_erosion (n_iterations max_value : Z) (X : list (nd Z)) : list (nd Z) :=
  map (nmap (fun v => if v =? 0 then max_value else v - 1))
      (erode X 1 n_iterations 1 max_value).
Definition erosion_filtration (n_iterations : option Z) (n_jobs : Z)
  (X Y : list (nd Z)) : res (list (nd Z)) :=
  do f <- fit_iterations n_iterations X;
  parallel (fun b => Ok (calculate_erosion (fst f) (snd f) b)) n_jobs Y.
(** _calculate_signed_distance, lines 919-932, assignment by assignment. *)
Definition calculate_signed_distance (n_iterations max_value : Z) (X : list (nd Z))
  : list (nd Z) :=
  let Xd := map (nmap Z.opp) (dilate X 1 n_iterations 0 max_value) in
  let Xe := erode X 0 n_iterations 0 max_value in
  map (fun xde =>
    let x := fst xde in let xd := fst (snd xde) in let xe := snd (snd xde) in
    let mask := nmap (fun v => v =? 1) x in
    let mask_e := nmap (fun v => v =? 0) xe in
    let mask_d := nmap (fun v => v =? 0) xd in
    let xe := nzip (fun e m => if m : bool then e else 0) xe mask in
    let xe := nzip (fun e m => if m : bool then e - 1 else e) xe mask in
    let xd := nzip (fun d m => if m : bool then 0 else d) xd mask in
    let xd := nzip (fun d m => if m : bool then - max_value else d) xd mask_d in
    let xe := nzip (fun e m => if m : bool then max_value else e) xe mask_e in
    nzip Z.add xd xe) (combine X (combine Xd Xe)).
Definition signed_distance_filtration (n_iterations : option Z) (n_jobs : Z)
  (X Y : list (nd Z)) : res (list (nd Z)) :=
  do f <- fit_iterations n_iterations X;
  parallel (fun b => Ok (calculate_signed_distance (fst f) (snd f) b)) n_jobs Y.

(** ** preprocessing.py *)
(** [np.max] *)
Definition np_max (l : list Qc) : res Qc :=
  match l with
  | [] => Err ValueError
  | a :: l => Ok (fold_left (fun m v => if Qcleb m v then v else m) l a)
  end.
Definition batch_max (X : list (nd Qc)) : res Qc := np_max (flat_map ndata X).

(** Binarizer, lines 66-69, 94-104 and 129-140.  The threshold lies in (0, 1];
    dividing by a zero maximum gives NaN or an infinity. *)
Definition binarizer (threshold : Qc) (n_jobs : Z) (X Y : list (nd Qc))
  : res (list (nd bool)) :=
  do _ <- fit_shape X;
  if Qcleb threshold 0 || Qcltb 1 threshold then Err ValueError else
  do max_value <- batch_max X;
  parallel (fun b =>
    Ok (map (nmap (fun v => flt (Fin threshold) (fdiv (Fin v) (Fin max_value)))) b))
    n_jobs Y.

(** Inverter, lines 233-237, 261-277 and 301-309.  The dtype matters: a
    collection is boolean or numeric. *)
Inductive batch : Type := BBool (X : list (nd bool)) | BNum (X : list (nd Qc)).
Inductive max_param : Type := MVNone | MVBool (b : bool) | MVNum (q : Qc).
Definition bq (b : bool) : Qc := if b then 1%Qc else 0%Qc.
Definition fit_inverter (max_value : max_param) (X : batch) : res max_param :=
  do _ <- match X with BBool X => fit_shape X | BNum X => fit_shape X end;
  match max_value with
  | MVNone => match X with
              | BBool _ => Ok (MVBool true)
              | BNum X => do m <- batch_max X; Ok (MVNum m)
              end
  | m => Ok m
  end.
Definition invert (max_value : max_param) (n_jobs : Z) (Y : batch) : res batch :=
  match max_value, Y with
  | MVBool true, BBool Y =>
      do Z <- parallel (fun b => Ok (map (nmap negb) b)) n_jobs Y; Ok (BBool Z)
  | MVBool true, BNum Y =>
      do Z <- parallel (fun b => Ok (map (nmap (fun v => Qceqb v 0)) b)) n_jobs Y;
      Ok (BBool Z)
  | MVBool false, BBool Y =>        (* boolean subtract is not supported *)
      match Y with [] => Err ValueError | _ => Err TypeError end
  | MVBool false, BNum Y =>
      do Z <- parallel (fun b => Ok (map (nmap (fun v => (0 - v)%Qc)) b)) n_jobs Y;
      Ok (BNum Z)
  | MVNum m, BBool Y =>
      do Z <- parallel (fun b => Ok (map (nmap (fun v => (m - bq v)%Qc)) b)) n_jobs Y;
      Ok (BNum Z)
  | MVNum m, BNum Y =>
      do Z <- parallel (fun b => Ok (map (nmap (fun v => (m - v)%Qc)) b)) n_jobs Y;
      Ok (BNum Z)
  | MVNone, _ => Err NotFittedError
  end.
Definition inverter (max_value : max_param) (n_jobs : Z) (X Y : batch) : res batch :=
  do m <- fit_inverter max_value X; invert m n_jobs Y.

(** Padder, lines 425-447 and 471-480; [np.pad] with a constant. *)
Fixpoint map2 {A B C} (f : A -> B -> C) (l : list A) (m : list B) : list C :=
  match l, m with a :: l, b :: m => f a b :: map2 f l m | _, _ => [] end.
Definition np_pad {A} (padding : list Z) (value : A) (x : nd A) : nd A :=
  mk (map2 (fun n p => n + 2 * p) (nshape x) padding)
     (fun idx => match nget x (map2 Z.sub idx padding) with Some v => v | None => value end).
Definition fit_padder {A} (padding : option (list Z)) (X : list (nd A)) : res (list Z) :=
  do s <- fit_shape X;
  match padding with
  | None => Ok (map (fun _ => 1) s)
  | Some p => if zlen p =? zlen s then Ok p else Err ValueError
  end.
Definition pad_batch {A} (padding : list Z) (value : A) (n_jobs : Z) (Y : list (nd A))
  : res (list (nd A)) :=
  parallel (fun b =>
      if forallb (fun x => zlen (nshape x) =? zlen padding) b &&
         forallb (fun p => 0 <=? p) padding
      then Ok (map (np_pad padding value) b) else Err ValueError) n_jobs Y.
Definition padder {A} (padding : option (list Z)) (value : A) (n_jobs : Z)
  (X Y : list (nd A)) : res (list (nd A)) :=
  do p <- fit_padder padding X; pad_batch p value n_jobs Y.

(** ImageToPointCloud, lines 566-568, 592-598 and 623-631: flip the first image
    axis, swap the first two; numpy's AxisError is a ValueError. *)
Definition swap01 {A} (l : list A) : list A :=
  match l with a :: b :: t => b :: a :: t | _ => l end.
Definition flip0 (x : nd Z) : nd Z :=
  mk (nshape x) (fun idx =>
    match nshape x, idx with
    | n :: _, i :: t => match nget x (n - 1 - i :: t) with Some v => v | None => 0 end
    | _, _ => 0
    end).
Definition swapaxes01 (x : nd Z) : nd Z :=
  mk (swap01 (nshape x)) (fun idx => match nget x (swap01 idx) with Some v => v | None => 0 end).
Definition argwhere (x : nd Z) : list (list Z) :=
  filter (fun idx => match nget x idx with Some v => nonzero v | None => false end)
         (indices (nshape x)).
Definition image_to_point_cloud (n_jobs : Z) (X Y : list (nd Z)) : res (list (list (list Z))) :=
  do _ <- fit_shape X;
  if forallb (fun x => 2 <=? zlen (nshape x)) Y then
    parallel (fun b => Ok (map argwhere b)) n_jobs (map (fun x => swapaxes01 (flip0 x)) Y)
  else Err ValueError.
