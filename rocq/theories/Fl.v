(** Numpy floating point values, without rounding.

    A float64 is modelled as an exact rational ([Fin q], canonical rationals
    [Qc] so that equality is Leibniz equality) or one of the IEEE-754 specials.
    Comparisons and arithmetic follow IEEE-754 for the specials (every
    comparison with NaN is false, inf - inf = NaN, 0 * inf = NaN, x / 0 = +-inf
    or NaN).  Simplifications: no rounding, no overflow, no signed zero
    (dividing by zero uses the positive zero). *)
From Coq Require Export QArith Qcanon.
From Coq Require Import Lia Bool.
Open Scope Qc_scope.

Inductive fl : Type :=
| NaN
| NInf
| Fin (q : Qc)
| PInf.

Definition Qcleb (x y : Qc) : bool := Qle_bool x y.
Definition Qcltb (x y : Qc) : bool := negb (Qle_bool y x).
Definition Qceqb (x y : Qc) : bool := Qeq_bool x y.

(** [x <= y], [x < y], [x == y] on float64 *)
Definition fle (x y : fl) : bool :=
  match x, y with
  | NaN, _ | _, NaN => false
  | NInf, _ | _, PInf => true
  | Fin a, Fin b => Qcleb a b
  | _, _ => false
  end.
Definition flt (x y : fl) : bool :=
  match x, y with
  | NaN, _ | _, NaN => false
  | NInf, NInf | PInf, PInf => false
  | NInf, _ | _, PInf => true
  | Fin a, Fin b => Qcltb a b
  | _, _ => false
  end.
Definition feq (x y : fl) : bool :=
  match x, y with
  | NInf, NInf | PInf, PInf => true
  | Fin a, Fin b => Qceqb a b
  | _, _ => false
  end.
Definition isnan (x : fl) : bool := match x with NaN => true | _ => false end.
Definition isfin (x : fl) : bool := match x with Fin _ => true | _ => false end.

Definition fadd (x y : fl) : fl :=
  match x, y with
  | NaN, _ | _, NaN => NaN
  | NInf, PInf | PInf, NInf => NaN
  | NInf, _ | _, NInf => NInf
  | PInf, _ | _, PInf => PInf
  | Fin a, Fin b => Fin (a + b)
  end.
Definition fopp (x : fl) : fl :=
  match x with NaN => NaN | NInf => PInf | PInf => NInf | Fin a => Fin (- a) end.
Definition fsub (x y : fl) : fl := fadd x (fopp y).
Definition fsign (x : fl) : Z :=
  match x with
  | NaN => 0 | NInf => -1 | PInf => 1
  | Fin a => match Qccompare a 0 with Lt => -1 | Eq => 0 | Gt => 1 end
  end%Z.
Definition finf (s : Z) : fl :=
  if (s =? 0)%Z then NaN else if (s <? 0)%Z then NInf else PInf.
Definition fmul (x y : fl) : fl :=
  match x, y with
  | NaN, _ | _, NaN => NaN
  | Fin a, Fin b => Fin (a * b)
  | _, _ => finf (fsign x * fsign y)
  end.
Definition fdiv (x y : fl) : fl :=
  match x, y with
  | NaN, _ | _, NaN => NaN
  | Fin a, Fin b => if Qceqb b 0 then finf (fsign x) else Fin (a / b)
  | Fin _, _ => Fin 0
  | _, Fin b => finf (fsign x * (if (fsign y <? 0)%Z then -1 else 1))%Z
  | _, _ => NaN
  end.
Definition fabs (x : fl) : fl :=
  match x with
  | NaN => NaN | NInf | PInf => PInf
  | Fin a => if Qcleb 0 a then Fin a else Fin (- a)
  end.
(** [np.maximum] / [np.minimum] on scalars: NaN propagates *)
Definition fmax (x y : fl) : fl :=
  if isnan x || isnan y then NaN else if fle x y then y else x.
Definition fmin (x y : fl) : fl :=
  if isnan x || isnan y then NaN else if fle x y then x else y.
Definition f0 : fl := Fin 0.
Definition f1 : fl := Fin 1.
Definition qz (z : Z) : Qc := Q2Qc (inject_Z z).
Definition fz (z : Z) : fl := Fin (Q2Qc (inject_Z z)).

(** Boolean equality of float lists (used to state concrete examples: two
    equal rationals may carry different canonicity proofs). *)
Fixpoint feqs (l m : list fl) : bool :=
  match l, m with
  | nil, nil => true
  | cons x l', cons y m' => (isnan x && isnan y || feq x y) && feqs l' m'
  | _, _ => false
  end.
