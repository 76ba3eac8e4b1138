(** Model of gtda/utils/intervals.py (class Interval).

    Endpoints and keys are float64 values without rounding ([fl]); Python ints
    and bools are identified with the float of the same value.  An object which
    is not a numbers.Real is [None].  Division follows Python floats
    (ZeroDivisionError), not numpy scalars. *)
From Coq Require Import Qround.
From Verif Require Import Np Fl.
Open Scope Z_scope.

(** intervals.py line 30: the valid values of [closed] *)
Inductive closure := CLeft | CRight | CBoth | CNeither.
Record interval := MkInterval { iv_left : fl; iv_right : fl; iv_closed : closure }.

(** intervals.py lines 32-51 __init__ and _validate_endpoint.  [closed = None]: a value
    outside _VALID_CLOSED. *)
Definition interval_init (left right : option fl) (closed : option closure) : res interval :=
  match left with
  | None => Err ValueError
  | Some l =>
    match right with
    | None => Err ValueError
    | Some r =>
      match closed with
      | None => Err ValueError
      | Some c => if negb (fle l r) then Err ValueError else Ok (MkInterval l r c)
      end
    end
  end.

(** intervals.py lines 53-79 closed_left, closed_right, open_left, open_right *)
Definition closed_left (i : interval) : bool := match iv_closed i with CLeft | CBoth => true | _ => false end.
Definition closed_right (i : interval) : bool := match iv_closed i with CRight | CBoth => true | _ => false end.
Definition open_left (i : interval) : bool := negb (closed_left i).
Definition open_right (i : interval) : bool := negb (closed_right i).

(** intervals.py lines 81-102 mid, length, is_empty *)
Definition iv_mid (i : interval) : fl := fmul (Fin (Q2Qc (1 # 2))) (fadd (iv_left i) (iv_right i)).
Definition iv_length (i : interval) : fl := fsub (iv_right i) (iv_left i).
Definition is_empty (i : interval) : bool :=
  feq (iv_right i) (iv_left i) && match iv_closed i with CBoth => false | _ => true end.

(** Operands of the operators: a real number, an Interval, or something else. *)
Inductive operand := OReal (x : fl) | OInterval (i : interval) | OOther.

(** intervals.py lines 107-111 __contains__; comparing a real with an unrelated object
    raises TypeError *)
Definition iv_contains (i : interval) (key : operand) : res bool :=
  match key with
  | OInterval _ | OOther => Err TypeError
  | OReal x =>
      Ok ((if open_left i then flt (iv_left i) x else fle (iv_left i) x) &&
          (if open_right i then flt x (iv_right i) else fle x (iv_right i)))
  end.

(** Python's [x / y] and [x // y] on floats *)
Definition py_div (x y : fl) : res fl := if feq y f0 then Err ZeroDivisionError else Ok (fdiv x y).
Definition ffloordiv (x y : fl) : fl :=
  match x, y with
  | Fin a, Fin b => fz (Qfloor (this (a / b)%Qc))
  | Fin a, PInf => if Qcltb a 0 then fz (-1) else f0
  | Fin a, NInf => if Qcltb 0 a then fz (-1) else f0
  | _, _ => NaN
  end.
Definition py_floordiv (x y : fl) : res fl := if feq y f0 then Err ZeroDivisionError else Ok (ffloordiv x y).

(** intervals.py lines 130-163 __add__, __sub__, __mul__, __truediv__, __floordiv__; [NotImplemented]
    becomes a TypeError, since no reflected operator exists.  The branch
    [isinstance(self, Real)] is never taken. *)
Definition iv_add (i : interval) (y : operand) : res interval :=
  match y with
  | OReal y => interval_init (Some (fadd (iv_left i) y)) (Some (fadd (iv_right i) y)) (Some (iv_closed i))
  | _ => Err TypeError
  end.
Definition iv_sub (i : interval) (y : operand) : res interval :=
  match y with
  | OReal y => interval_init (Some (fsub (iv_left i) y)) (Some (fsub (iv_right i) y)) (Some (iv_closed i))
  | _ => Err TypeError
  end.
Definition iv_mul (i : interval) (y : operand) : res interval :=
  match y with
  | OReal y => interval_init (Some (fmul (iv_left i) y)) (Some (fmul (iv_right i) y)) (Some (iv_closed i))
  | _ => Err TypeError
  end.
Definition iv_truediv (i : interval) (y : operand) : res interval :=
  match y with
  | OReal y => do l <- py_div (iv_left i) y; do r <- py_div (iv_right i) y;
               interval_init (Some l) (Some r) (Some (iv_closed i))
  | _ => Err TypeError
  end.
Definition iv_floordiv (i : interval) (y : operand) : res interval :=
  match y with
  | OReal y => do l <- py_floordiv (iv_left i) y; do r <- py_floordiv (iv_right i) y;
               interval_init (Some l) (Some r) (Some (iv_closed i))
  | _ => Err TypeError
  end.
(** Python's evaluation of [a + b] and [a * b]: a float does not know how to add an
    Interval, and Interval defines neither __radd__ nor __rmul__. *)
Definition py_binop (op : interval -> operand -> res interval) (a b : operand) : res interval :=
  match a with
  | OInterval i => op i b
  | _ => Err TypeError
  end.

(** Calling the class: two positional parameters, [closed] is keyword-only (line 32) *)
Inductive py_arg := AReal (x : fl) | AClosed (c : closure).
Definition interval_call (args : list py_arg) (closed : option (option closure)) : res interval :=
  let as_real a := match a with AReal x => Some x | AClosed _ => None end in
  match args, closed with
  | [l; r], Some c => interval_init (as_real l) (as_real r) c
  | _, _ => Err TypeError
  end.
(** intervals.py lines 113-115 __reduce__, and what pickle and copy do with its result:
    the class is called with the given tuple as positional arguments. *)
Definition iv_reduce (i : interval) : list py_arg := [AReal (iv_left i); AReal (iv_right i); AClosed (iv_closed i)].
Definition unpickle (args : list py_arg) : res interval := interval_call args None.

(** intervals.py lines 165-193 intersects *)
Definition iv_intersects (i : interval) (other : operand) : res bool :=
  match other with
  | OInterval o =>
      let op1 := if closed_left i && closed_right o then fle else flt in
      let op2 := if closed_left o && closed_right i then fle else flt in
      Ok (op1 (iv_left i) (iv_right o) && op2 (iv_left o) (iv_right i))
  | _ => Err TypeError
  end.
