(** Real-valued numpy / scipy primitives (external): powers, vector norms,
    Minkowski distances.  Values are exact real numbers; a NaN result is [None]
    in an [option R]. *)
From Coq Require Import Reals.
From Verif Require Import Np Fl.
Open Scope R_scope.

(** Exponents: a real number or numpy's inf. *)
Inductive expo : Type := Pfin (p : R) | Pinf.

Definition qr (q : Qc) : R := Q2R (this q).

(** [x ** y] for x >= 0, y >= 0. *)
Definition rpow (x y : R) : R :=
  if Req_EM_T x 0 then (if Req_EM_T y 0 then 1 else 0) else Rpower x y.

Definition rsum (l : list R) : R := fold_right Rplus 0 l.
Definition rmax (l : list R) : R := fold_right Rmax 0 l.

(** [np.linalg.norm(v, ord=p)] of a vector, p > 0. *)
Definition norm (p : expo) (v : list R) : R :=
  match p with
  | Pfin p => rpow (rsum (map (fun x => rpow (Rabs x) p) v)) (1 / p)
  | Pinf => rmax (map Rabs v)
  end.
(** The maximum of an empty axis raises ValueError. *)
Definition np_norm (p : expo) (v : list R) : res R :=
  match p, v with Pinf, [] => Err ValueError | _, _ => Ok (norm p v) end.

(** scipy's "minkowski" distance. *)
Definition vsub (u v : list R) : list R :=
  map (fun xy => fst xy - snd xy) (combine u v).
Definition mink (p : expo) (u v : list R) : R := norm p (vsub u v).
