(** Model of HeightFiltration, RadialFiltration and DensityFiltration in
    gtda/images/filtrations.py, over exact reals.  Pixels are integers.  Metrics
    (sklearn.metrics.pairwise_distances) are parameters computing the distance of
    two points. *)
From Coq Require Import Reals.
From Verif Require Import Np Nd Fl RNp FeatModel ImgModel.
Open Scope Z_scope.

(** [np.meshgrid( *ranges, indexing='xy')] stacked along a new last axis: the
    first two axes are swapped, the entry for a pixel lists its coordinates. *)
Definition meshgrid (ranges : list (list Z)) : nd (list Z) :=
  mk (swap01 (map zlen ranges))
     (fun idx => map2 (fun r i => match Znth r i with Some v => v | None => 0 end)
                      ranges (swap01 idx)).
(** [X.shape[axis_order[i]]] for axis_order = [2, 1, 3]: a one-dimensional image
    has no axis 2. *)
Definition ordered_axes (s : list Z) : res (list Z) :=
  match s with [_] => Err IndexError | _ => Ok (swap01 s) end.
Definition ones (s : list Z) : nd Z := mk s (fun _ => 1).
(** [np.max] *)
Definition rnp_max (l : list R) : res R :=
  match l with [] => Err ValueError | a :: l => Ok (fold_left Rmax l a) end.

(** ** HeightFiltration.  Dividing a zero direction by its norm gives NaNs, which
    then fill the mesh products and the maximum: [None] is NaN. *)
Definition rdot (u : list Z) (v : list R) : R := rsum (map2 (fun a b => (IZR a * b)%R) u v).
Definition normalised (v : list R) : option (list R) :=
  if Req_EM_T (norm (Pfin 2) v) 0 then None
  else Some (map (fun a => (a / norm (Pfin 2) v)%R) v).
(** Lines 135-138; [flip] reverses. *)
Fixpoint mesh_ranges (direction : option (list R)) (len : Z) (i : Z) (sizes : list Z)
  : res (list (list Z)) :=
  match sizes with
  | [] => Ok []
  | n :: sizes =>
      if len <=? i then Err IndexError else
      let nonneg := match direction with
                    | Some d => match Znth d i with
                                | Some x => if Rle_dec 0 x then true else false
                                | None => false
                                end
                    | None => false
                    end in
      do rest <- mesh_ranges direction len (i + 1) sizes;
      Ok ((if nonneg then arange n else map Z.opp (rev (arange n))) :: rest)
  end.
(** _calculate_height, lines 88-95, for one image: activated pixels index the
    mesh. *)
Definition calculate_height1 (mesh : nd (list Z)) (direction : option (list R))
  (max_value : option R) (x : nd Z) : res (nd (option R)) :=
  if forallb (fun idx => match nget mesh idx with Some _ => true | None => false end) (argwhere x)
  then Ok (mk (nshape x) (fun idx =>
         match nget x idx, nget mesh idx with
         | Some v, Some p =>
             if nonzero v then match direction with Some d => Some (rdot p d) | None => None end
             else max_value
         | _, _ => max_value
         end))
  else Err IndexError.
(** fit, lines 120-147. *)
Definition fit_height (direction : option (list R)) (X : list (nd Z))
  : res (nd (list Z) * option (list R) * option R) :=
  do s <- fit_shape X;
  let d := match direction with None => map (fun _ => 1%R) s | Some d => d end in
  let direction_ := normalised d in
  do sizes <- ordered_axes s;
  do ranges <- mesh_ranges direction_ (zlen d) 0 sizes;
  let mesh := meshgrid ranges in
  if zlen d =? zlen s then
    do h <- calculate_height1 mesh direction_ (Some 0%R) (ones s);
    match direction_ with
    | None => match ndata h with [] => Err ValueError | _ => Ok (mesh, direction_, None) end
    | Some _ =>
        do m <- rnp_max (map (fun v => match v with Some r => r | None => 0%R end) (ndata h));
        Ok (mesh, direction_, Some (m + 1)%R)
    end
  else Err ValueError.   (* np.dot *)
Definition height_filtration (direction : option (list R)) (n_jobs : Z) (X Y : list (nd Z))
  : res (list (nd (option R))) :=
  do f <- fit_height direction X;
  match f with (mesh, direction_, max_value) =>
    parallel (fun b => mapM (calculate_height1 mesh direction_ max_value) b) n_jobs Y
  end.

(** ** RadialFiltration.  The radius is positive or np.inf ([None]). *)
Definition radius_ok (radius : option R) : bool :=
  match radius with None => true | Some r => if Rlt_dec 0 r then true else false end.
Definition beyond (d : R) (radius : option R) : bool :=
  match radius with None => false | Some r => if Rlt_dec r d then true else false end.
(** The product of a mesh value and a pixel. *)
Definition xmul (d : xr) (v : Z) : xr :=
  match d with
  | XNaN => XNaN
  | XFin d => XFin (d * IZR v)
  | XPInf => if v =? 0 then XNaN else if 0 <? v then XPInf else XNInf
  | XNInf => if v =? 0 then XNaN else if 0 <? v then XNInf else XPInf
  end.
(** [np.nan_to_num(v, nan=nan, posinf=posinf)] *)
Definition nan_to_num_ (nan posinf : xr) (v : xr) : xr :=
  match v with
  | XNaN => nan
  | XPInf => posinf
  | XNInf => XFin (- float_max)
  | XFin r => XFin r
  end.
Definition xeqb (v : xr) (c : R) : bool :=
  match v with XFin r => if Req_EM_T r c then true else false | _ => false end.
(** _calculate_radial, lines 321-328, for one image.  Images of a different
    shape are an error (numpy would broadcast axes of size 1). *)
Fixpoint zeqb_list (a b : list Z) : bool :=
  match a, b with
  | [], [] => true
  | i :: a, j :: b => (i =? j) && zeqb_list a b
  | _, _ => false
  end.
Definition calculate_radial1 (mesh : nd xr) (max_value : R) (x : nd Z) : res (nd xr) :=
  if zeqb_list (nshape mesh) (nshape x) then
    let xr1 := nmap (nan_to_num_ XPInf XPInf) (nzip xmul mesh x) in
    let xr2 := nmap (nan_to_num_ (XFin 0) (XFin (-1))) xr1 in
    let xr3 := nzip (fun r v => if v =? 0 then XFin max_value else r) xr2 x in
    Ok (nmap (fun r => if xeqb r (-1)%R then XFin max_value else r) xr3)
  else Err ValueError.
(** fit, lines 353-383. *)
Definition fit_radial (metric : list R -> list R -> R) (center : option (list Z))
  (radius : option R) (X : list (nd Z)) : res (nd xr * R) :=
  do s <- fit_shape X;
  if negb (radius_ok radius) then Err ValueError else
  let c := match center with None => map (fun _ => 0) s | Some c => c end in
  do sizes <- ordered_axes s;
  let points := meshgrid (map arange sizes) in
  if zlen c =? zlen s then
    let mesh := nmap (fun p => let d := metric (map IZR c) (map IZR p) in
                               if beyond d radius then XPInf else XFin d) points in
    do r <- calculate_radial1 mesh 0 (ones s);
    do m <- rnp_max (map (fun v => match v with XFin q => q | _ => 0%R end) (ndata r));
    Ok (mesh, (m + 1)%R)
  else Err ValueError.   (* pairwise_distances *)
Definition radial_filtration (metric : list R -> list R -> R) (center : option (list Z))
  (radius : option R) (n_jobs : Z) (X Y : list (nd Z)) : res (list (nd xr)) :=
  do f <- fit_radial metric center radius X;
  parallel (fun b => mapM (calculate_radial1 (fst f) (snd f)) b) n_jobs Y.

(** ** DensityFiltration. *)
Definition rceil (r : R) : Z := 1 - up (- r).
(** Reshaping to (N, H, W, -1), for one image. *)
Definition reshape3 (s : list Z) : list Z :=
  match s with [h] => [h; 1] | [h; w] => [h; w; 1] | _ => s end.
(** [np.roll(np.roll(np.roll(x, k, axis=3), j, axis=2), i, axis=1)] for one
    image. *)
Definition roll3 (i j k : Z) (x : nd Z) : nd Z :=
  mk (nshape x) (fun idx =>
    match nshape x, idx with
    | [n; m; l], [a; b; c] =>
        match nget x [(a - i) mod n; (b - j) mod m; (c - k) mod l] with Some v => v | None => 0 end
    | _, _ => 0
    end).
(** The attributes set by fit: _size, mask_, _iterator, n_dimensions_. *)
Record density_fit : Type := DensityFit
  { df_size : Z; df_mask : nd bool; df_iterator : list (Z * Z * Z); df_ndim : Z }.
(** Lines 1165-1193. *)
Definition density_mask (metric : list R -> list R -> R) (radius : R) (size : Z) : nd bool :=
  let r := arange (2 * size + 1) in
  nmap (fun p => if Rle_dec (metric [IZR size; IZR size; IZR size] (map IZR p)) radius
                 then true else false) (meshgrid [r; r; r]).
Definition density_iterator (size ndim : Z) : list (Z * Z * Z) :=
  let r := py_range (- size) (size + 1) in
  let axis d := if d <? ndim then r else [0] in
  flat_map (fun i => flat_map (fun j => map (fun k => (i, j, k)) (axis 2)) (axis 1)) (axis 0).
(** fit, lines 1157-1202; sklearn rejects an infinite radius, numpy negative
    sizes. *)
Definition fit_density (metric : list R -> list R -> R) (radius : option R) (X : list (nd Z))
  : res density_fit :=
  do s <- fit_shape X;
  if negb (radius_ok radius) then Err ValueError else
  match radius with
  | None => Err ValueError
  | Some radius =>
      let size := rceil (metric [0%R] [radius]) in
      if size <? 0 then Err ValueError else
      if zlen (reshape3 s) =? 3   (* the padder has three paddings *)
      then Ok (DensityFit size (density_mask metric radius size)
                          (density_iterator size (zlen s)) (zlen s))
      else Err ValueError
  end.
(** _calculate_density, lines 1123-1133, for one image. *)
Definition calculate_density1 (f : density_fit) (x : nd Z) : nd Z :=
  fold_left (fun xd ijk =>
    match ijk with (i, j, k) =>
      let m := match nget (df_mask f) [df_size f + i; df_size f + j; df_size f + k] with
               | Some true => 1 | _ => 0 end in
      nzip Z.add xd (nmap (fun v => v * m) (roll3 i j k x))
    end) (df_iterator f) (mk (nshape x) (fun _ => 0)).
(** The slice [size: -size] of an axis with n entries. *)
Definition crop_len (size n : Z) : Z := if size =? 0 then 0 else Z.max 0 (n - 2 * size).
Definition crop (size ndim : Z) (x : nd Z) : nd Z :=
  match nshape x with
  | [n; m; l] =>
      let third := ndim =? 3 in
      mk [crop_len size n; crop_len size m; if third then crop_len size l else l] (fun idx =>
        match idx with
        | [a; b; c] =>
            match nget x [a + size; b + size; if third then c + size else c] with
            | Some v => v | None => 0 end
        | _ => 0
        end)
  | _ => x
  end.
(** [reshape] *)
Definition reshape {A} (s : list Z) (x : nd A) : res (nd A) :=
  if nd_size s =? nd_size (nshape x) then Ok (Nd s (ndata x)) else Err ValueError.
(** transform, lines 1227-1248. *)
Definition density_filtration (metric : list R -> list R -> R) (radius : option R) (n_jobs : Z)
  (X Y : list (nd Z)) : res (list (nd Z)) :=
  do f <- fit_density metric radius X;
  let padding := map (fun d => if d <? df_ndim f then df_size f else 0) [0; 1; 2] in
  do Xt <- pad_batch padding 0 1 (map (fun y => Nd (reshape3 (nshape y)) (ndata y)) Y);
  do Xt <- parallel (fun b => Ok (map (calculate_density1 f) b)) n_jobs Xt;
  mapM (fun yx => reshape (nshape (fst yx)) (crop (df_size f) (df_ndim f) (snd yx)))
       (combine Y Xt).
