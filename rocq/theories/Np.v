(** Python / NumPy primitives used by every model file.

    These are the *external* operations (CPython list and slice semantics,
    numpy indexing, joblib/sklearn slicing) on which giotto-tda's own code is
    built.  They are part of the trusted base: they model CPython 3 / numpy /
    scikit-learn, not code in /repo. *)
From Coq Require Export List ZArith Lia Bool.
Export ListNotations.
Open Scope Z_scope.

(** ** Exceptions as values *)
Inductive exn : Type :=
| ValueError | TypeError | IndexError | KeyError | AttributeError
| NotFittedError | ZeroDivisionError | OverflowError
| DataDimensionalityWarning | NotImplementedError | StopIteration | RuntimeError | UnboundLocalError.

Inductive res (A : Type) : Type :=
| Ok (a : A)
| Err (e : exn).
Arguments Ok {A} a.
Arguments Err {A} e.

Definition bind {A B} (r : res A) (f : A -> res B) : res B :=
  match r with Ok a => f a | Err e => Err e end.
Notation "'do' x <- r ; k" := (bind r (fun x => k))
  (at level 200, x pattern, r at level 100, k at level 200).
Definition rmap {A B} (f : A -> B) (r : res A) : res B :=
  match r with Ok a => Ok (f a) | Err e => Err e end.

(** Sequential evaluation of a list of fallible computations: the first
    exception (in list order) propagates. *)
Fixpoint mapM {A B} (f : A -> res B) (l : list A) : res (list B) :=
  match l with
  | [] => Ok []
  | x :: t => do y <- f x; do ys <- mapM f t; Ok (y :: ys)
  end.

(** ** Lengths and element access with integer (Z) positions *)
Definition zlen {A} (l : list A) : Z := Z.of_nat (length l).

(** Mathematical element access: [None] outside [0 .. len-1]. *)
Definition Znth {A} (l : list A) (i : Z) : option A :=
  if i <? 0 then None else nth_error l (Z.to_nat i).

(** numpy / Python indexing [l[i]]: negative positions count from the end,
    IndexError outside. *)
Definition py_get {A} (l : list A) (i : Z) : res A :=
  match Znth l (if i <? 0 then i + zlen l else i) with
  | Some x => Ok x
  | None => Err IndexError
  end.

(** [np.arange(n)], and the general list [f 0, ..., f (n-1)]. *)
Definition tabZ {A} (n : Z) (f : Z -> A) : list A :=
  map (fun k => f (Z.of_nat k)) (seq 0 (Z.to_nat n)).
Definition arange (n : Z) : list Z := tabZ n (fun i => i).

(** [[f(k, x) for k, x in enumerate(l)]] *)
Fixpoint mapi_from {A B} (i : Z) (f : Z -> A -> B) (l : list A) : list B :=
  match l with
  | [] => []
  | x :: t => f i x :: mapi_from (i + 1) f t
  end.
Definition mapi {A B} (f : Z -> A -> B) (l : list A) : list B := mapi_from 0 f l.

(** numpy item assignment [l[i] = v] (0 <= i < len; no effect outside, where
    numpy raises) and slice assignment on positions [a <= k < b]. *)
Definition set_at {A} (l : list A) (i : Z) (v : A) : list A :=
  mapi (fun k x => if k =? i then v else x) l.
Definition upd_range {A} (a b : Z) (f : Z -> A -> A) (l : list A) : list A :=
  mapi (fun k x => if (a <=? k) && (k <? b) then f (k - a) x else x) l.

(** numpy fancy indexing [l[idx]] with an integer index array. *)
Definition gather {A} (l : list A) (idx : list Z) : res (list A) :=
  mapM (py_get l) idx.

(** ** Slices: CPython's PySlice_AdjustIndices *)
Definition clip_index (step len : Z) (i : Z) : Z :=
  let lower := if step <? 0 then -1 else 0 in
  let upper := if step <? 0 then len - 1 else len in
  if i <? 0 then Z.max (i + len) lower else Z.min i upper.
Definition slice_start (step len : Z) (s : option Z) : Z :=
  match s with
  | Some i => clip_index step len i
  | None => if step <? 0 then len - 1 else 0
  end.
Definition slice_stop (step len : Z) (s : option Z) : Z :=
  match s with
  | Some i => clip_index step len i
  | None => if step <? 0 then -1 else len
  end.
Definition slice_count (step lo hi : Z) : Z :=
  if step <? 0
  then (if hi <? lo then (lo - hi - 1) / (- step) + 1 else 0)
  else (if lo <? hi then (hi - lo - 1) / step + 1 else 0).

(** [l[start:stop:step]] for [step <> 0]. *)
Definition py_slice {A} (start stop : option Z) (step : Z) (l : list A)
  : list A :=
  let n := zlen l in
  let lo := slice_start step n start in
  let hi := slice_stop step n stop in
  flat_map (fun k => match Znth l (lo + k * step) with
                     | Some x => [x] | None => [] end)
           (arange (slice_count step lo hi)).

(** [l[a:b]] *)
Definition py_sub {A} (a b : option Z) (l : list A) : list A :=
  py_slice a b 1 l.

(** ** sklearn.utils.gen_even_slices(n, n_packs)
    start = 0
    for pack_num in range(n_packs):
        this_n = n // n_packs
        if pack_num < n % n_packs: this_n += 1
        if this_n > 0: yield slice(start, start + this_n); start += this_n *)
Fixpoint even_slices_aux (fuel : nat) (n n_packs pack start : Z)
  : list (Z * Z) :=
  match fuel with
  | O => []
  | S fuel' =>
      let this_n := n / n_packs + (if pack <? n mod n_packs then 1 else 0) in
      if 0 <? this_n
      then (start, start + this_n)
             :: even_slices_aux fuel' n n_packs (pack + 1) (start + this_n)
      else even_slices_aux fuel' n n_packs (pack + 1) start
  end.
Definition gen_even_slices (n n_packs : Z) : list (Z * Z) :=
  even_slices_aux (Z.to_nat n_packs) n n_packs 0 0.
