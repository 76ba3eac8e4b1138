(** Model of gtda/diagrams/features.py (PersistenceEntropy, NumberOfPoints,
    ComplexPolynomial) and gtda/diagrams/_features.py.  Coordinates of points
    are exact rationals with death >= birth; logarithms, roots and complex
    numbers are exact reals. *)
From Coq Require Import Reals.
From Verif Require Import Np Fl DiagTypes DiagModel VecModel RNp MetricModel.
Open Scope Z_scope.

(** A float result. *)
Inductive xr : Type := XNaN | XPInf | XNInf | XFin (r : R).

(** [np.log2] of a non-negative real. *)
Definition xlog2 (x : R) : xr :=
  if Req_EM_T x 0 then XNInf else XFin (ln x / ln 2).
(** IEEE division (zeros are positive). *)
Definition xdiv (a b : xr) : xr :=
  match a, b with
  | XFin a, XFin b =>
      if Req_EM_T b 0 then
        (if Req_EM_T a 0 then XNaN else if Rlt_dec 0 a then XPInf else XNInf)
      else XFin (a / b)
  | XFin _, (XPInf | XNInf) => XFin 0
  | XPInf, XFin b => if Rlt_dec b 0 then XNInf else XPInf
  | XNInf, XFin b => if Rlt_dec b 0 then XPInf else XNInf
  | _, _ => XNaN
  end.
(** Largest double. *)
Definition float_max : R := IZR (2 ^ 1024 - 2 ^ 971).
(** [np.nan_to_num(v, nan=fill)] *)
Definition nan_to_num (fill : R) (v : xr) : xr :=
  match v with
  | XNaN => XFin fill
  | XPInf => XFin float_max
  | XNInf => XFin (- float_max)
  | XFin r => XFin r
  end.

(** scipy.special.entr and scipy.stats.entropy(pk, base=2): pk is divided by its
    sum; the sum over an empty axis is 0. *)
Definition entr (x : R) : R := if Req_EM_T x 0 then 0%R else (- x * ln x)%R.
Definition entropy2 (pk : list R) : xr :=
  let s := rsum pk in
  match pk with
  | [] => XFin 0
  | _ => if Req_EM_T s 0 then XNaN
         else XFin (rsum (map (fun x => entr (x / s)) pk) / ln 2)
  end.

(** PersistenceEntropy._persistence_entropy, lines 95-105, for one sample. *)
Definition persistence_entropy1 (normalize : bool) (nan_fill_value : option R)
  (x : list qpt) : xr :=
  let X_lifespan := map lifetime x in
  let X_entropy := entropy2 X_lifespan in
  let X_entropy := if normalize then xdiv X_entropy (xlog2 (rsum X_lifespan))
                   else X_entropy in
  match nan_fill_value with
  | None => X_entropy
  | Some fill => nan_to_num fill X_entropy
  end.
(** PersistenceEntropy: fit(X), transform(Y), lines 133-186. *)
Definition persistence_entropy (normalize : bool) (nan_fill_value : option R)
  (n_jobs : Z) (X Y : list diagram) : res (list (list xr)) :=
  do dims <- first_dims X;
  vectorise (fun _ batch =>
      Ok (map (persistence_entropy1 normalize nan_fill_value) batch))
    Y dims n_jobs.

(** NumberOfPoints: lines 437-439, 467-476 and 501-511.  The subdiagrams are
    taken before slicing. *)
Definition number_points (x : list qpt) : Z :=
  zlen (filter (fun p => negb (Qceqb (snd p - fst p)%Qc 0%Qc)) x).
Definition number_of_points (n_jobs : Z) (X Y : list diagram)
  : res (list (list Z)) :=
  do dims <- first_dims X;
  do blocks <- mapM (fun ds =>
        do Xs <- subdiagrams Y [fst ds];
        Ok (map number_points (take_slice (snd ds) (map to_q Xs))))
     (flat_map (fun dim => map (fun s => (dim, s))
                               (gen_even_slices (zlen Y) n_jobs)) dims);
  match blocks with
  | [] => Err ValueError
  | _ => do M <- np_reshape (zlen dims) (zlen Y) (concat blocks);
         Ok (transposeZ (zlen Y) M)
  end.

(** ** ComplexPolynomial *)
Notation cplx := (R * R)%type (only parsing).
Definition cadd (a b : cplx) : cplx := (fst a + fst b, snd a + snd b)%R.
Definition copp (a : cplx) : cplx := (- fst a, - snd a)%R.
Definition cmul (a b : cplx) : cplx :=
  (fst a * fst b - snd a * snd b, fst a * snd b + snd a * fst b)%R.

Inductive polynomial_type : Type := PolyR | PolyS | PolyT.

(** gtda/diagrams/_features.py, lines 11-38. *)
Definition alpha_of (p : qpt) : R :=
  sqrt (qr (fst p) * qr (fst p) + qr (snd p) * qr (snd p)).
Definition root_of (t : polynomial_type) (p : qpt) : cplx :=
  let b := qr (fst p) in
  let d := qr (snd p) in
  match t with
  | PolyR => (b, d)
  | PolyS => let alpha := alpha_of p in
             let alpha := if Req_EM_T alpha 0 then 1%R else alpha in
             let c := (1 / (sqrt 2 * alpha))%R in
             (b * (d - b) * c, d * (d - b) * c)%R
  | PolyT => let alpha := alpha_of p in
             ((d - b) / 2 * (cos alpha - sin alpha),
              (d - b) / 2 * (cos alpha + sin alpha))%R
  end.

(** [np.poly(roots)]: repeated [np.convolve(a, [1, -root])] starting from [1.];
    [None] stands for the float 1.0 returned for no roots.  Numpy drops the
    imaginary parts when the roots are closed under conjugation; they are 0
    then in exact arithmetic, so this is not modelled. *)
Definition convolve_root (a : list cplx) (root : cplx) : list cplx :=
  map (fun uv => cadd (fst uv) (cmul (copp root) (snd uv)))
      (combine (a ++ [(0, 0)%R]) ((0, 0)%R :: a)).
Definition np_poly (roots : list cplx) : option (list cplx) :=
  match roots with
  | [] => None
  | _ => Some (fold_left convolve_root roots [(1, 0)%R])
  end.

(** ComplexPolynomial._complex_polynomial, lines 671-685: subscripting the float
    is a TypeError. *)
Definition complex_polynomial1 (t : polynomial_type) (n_coefficients : Z)
  (x : list qpt) : res (list R) :=
  let X := filter (fun p => negb (Qceqb (fst p) (snd p))) x in
  match np_poly (map (root_of t) X) with
  | None => Err TypeError
  | Some coefficients =>
      let coefficients := py_sub (Some 1) None coefficients in
      let dimension := Z.min n_coefficients (zlen coefficients) in
      let c := py_sub None (Some dimension) coefficients in
      let zeros := repeat 0%R (Z.to_nat (n_coefficients - dimension)) in
      Ok ((map fst c ++ zeros) ++ (map snd c ++ zeros))
  end.

(** The parameter n_coefficients. *)
Inductive ncoef : Type := NCnone | NCint (n : Z) | NCper (l : list Z).
(** fit, lines 643-669. *)
Definition fit_coefficients (nc : ncoef) (X : list diagram)
  : res (list (fl * Z)) :=
  do dims <- first_dims X;
  match nc with
  | NCnone =>
      match X with
      | [] => Err IndexError
      | x0 :: _ =>
          Ok (map (fun dim =>
                (dim, zlen (filter (fun q => feq q dim) (map pq x0)))) dims)
      end
  | NCper l => if zlen l =? zlen dims then Ok (combine dims l) else Err ValueError
  | NCint n => Ok (map (fun dim => (dim, n)) dims)
  end.
(** transform, lines 709-723: samples outside, dimensions inside, concatenated
    and reshaped to one row per sample. *)
Definition complex_polynomial (t : polynomial_type) (nc : ncoef)
  (X Y : list diagram) : res (list (list R)) :=
  do coefs <- fit_coefficients nc X;
  do blocks <- mapM (fun yd =>
        do sub <- subdiagrams [fst yd] [fst (snd yd)];
        match map to_q sub with
        | x :: _ => complex_polynomial1 t (snd (snd yd)) x
        | [] => Err IndexError
        end)
     (flat_map (fun y => map (fun d => (y, d)) coefs) Y);
  match blocks with
  | [] => Err ValueError
  | _ => let flat := concat blocks in
         if zlen flat mod zlen Y =? 0 then
           np_reshape (zlen Y) (zlen flat / zlen Y) flat
         else Err ValueError
  end.
