(** Specifications for the scalar features (C27, C28, C29). *)
From Coq Require Import Reals Permutation.
From Verif Require Import Np Fl DiagTypes DiagSpec VecSpec RNp MetricSpec FeatModel.
Open Scope Z_scope.

(** ** Entropy of the lifetimes of the off-diagonal points, in bits. *)
Definition log2 (x : R) : R := (ln x / ln 2)%R.
Definition lifetimes (x : list (Qc * Qc)) : list R := map life (off_diagonal x).
Definition shannon (ls : list R) : R :=
  (- total (map (fun l => l / total ls * log2 (l / total ls)) ls))%R.

(** The largest finite binary64 number: a significand of 53 ones. *)
Definition largest_double : R := IZR ((2 ^ 53 - 1) * 2 ^ 971).
(** Value returned for a subdiagram [x] with at least one point. *)
Definition is_entropy_value (normalize : bool) (fill : option R)
  (x : list (Qc * Qc)) (v : xr) : Prop :=
  let nan := match fill with Some f => XFin f | None => XNaN end in
  let inf := match fill with Some _ => XFin largest_double | None => XPInf end in
  let L := total (lifetimes x) in
  let H := shannon (lifetimes x) in
  (off_diagonal x = [] -> v = nan) /\
  (off_diagonal x <> [] -> normalize = false -> v = XFin H) /\
  (off_diagonal x <> [] -> normalize = true -> L <> 1%R -> v = XFin (H / log2 L)) /\
  (off_diagonal x <> [] -> normalize = true -> L = 1%R ->
     (zlen (off_diagonal x) = 1 -> v = nan) /\ (zlen (off_diagonal x) <> 1 -> v = inf)).

(** ** Polynomials, coefficients of highest degree first. *)
Fixpoint cpow (z : R * R) (n : nat) : R * R :=
  match n with O => (1, 0)%R | S n => cmul z (cpow z n) end.
Fixpoint poly_value (c : list (R * R)) (z : R * R) : R * R :=
  match c with
  | [] => (0, 0)%R
  | a :: t => cadd (cmul a (cpow z (length t))) (poly_value t z)
  end.
Fixpoint cprod (l : list (R * R)) : R * R :=
  match l with [] => (1, 0)%R | a :: t => cmul a (cprod t) end.
(** [c] is the monic polynomial whose roots, with multiplicity, are [roots]. *)
Definition is_monic_with_roots (c roots : list (R * R)) : Prop :=
  length c = S (length roots) /\ nth_error c 0 = Some (1, 0)%R /\
  forall z, poly_value c z = cprod (map (fun r => cadd z (copp r)) roots).

(** The root attached to a point (b, d), docstring of ComplexPolynomial. *)
Definition is_root (t : polynomial_type) (p : Qc * Qc) (z : R * R) : Prop :=
  let b := qr (fst p) in
  let d := qr (snd p) in
  let norm := sqrt (b * b + d * d) in
  match t with
  | PolyR => z = (b, d)
  | PolyS => (fst z = (d - b) / (sqrt 2 * norm) * b /\
              snd z = (d - b) / (sqrt 2 * norm) * d)%R
  | PolyT => (fst z = (d - b) / 2 * (cos norm - sin norm) /\
              snd z = (d - b) / 2 * (cos norm + sin norm))%R
  end.

(** [block] lists the real parts, then the imaginary parts of the coefficients
    1, ..., n of [c], 0 beyond the degree. *)
Definition is_block (n : Z) (c : list (R * R)) (block : list R) : Prop :=
  zlen block = 2 * n /\
  forall k, 0 <= k < n ->
    let a := match Znth c (k + 1) with Some a => a | None => (0, 0)%R end in
    Znth block k = Some (fst a) /\ Znth block (n + k) = Some (snd a).
Definition is_polynomial_feature (t : polynomial_type) (n : Z)
  (x : list (Qc * Qc)) (block : list R) : Prop :=
  exists roots c, Forall2 (is_root t) (off_diagonal x) roots /\
    is_monic_with_roots c roots /\ is_block n c block.

(** Number of coefficients per dimension. *)
Definition coefficient_counts (nc : ncoef) (X : list diagram) (g : list (fl * Z)) : Prop :=
  dimensions_of X (map fst g) /\
  match nc with
  | NCnone => forall q n, In (q, n) g -> n = zlen (rows_of q (hd [] X))
  | NCint k => forall q n, In (q, n) g -> n = k
  | NCper l => map snd g = l
  end.
