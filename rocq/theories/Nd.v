(** n-dimensional numpy arrays: shape and data in C order. *)
From Verif Require Import Np.
Open Scope Z_scope.

Record nd (A : Type) : Type := Nd { nshape : list Z; ndata : list A }.
Arguments Nd {A}. Arguments nshape {A}. Arguments ndata {A}.

(** All index tuples of a shape, in C order. *)
Fixpoint indices (s : list Z) : list (list Z) :=
  match s with
  | [] => [[]]
  | n :: s => flat_map (fun i => map (cons i) (indices s)) (arange n)
  end.
Fixpoint nd_size (s : list Z) : Z :=
  match s with [] => 1 | n :: s => n * nd_size s end.
(** Is the index tuple valid for the shape, and its position in C order. *)
Fixpoint inside (s idx : list Z) : bool :=
  match s, idx with
  | [], [] => true
  | n :: s, i :: idx => (0 <=? i) && (i <? n) && inside s idx
  | _, _ => false
  end.
Fixpoint ravel (s idx : list Z) : Z :=
  match s, idx with
  | _ :: s, i :: idx => i * nd_size s + ravel s idx
  | _, _ => 0
  end.
(** [a[idx]] *)
Definition nget {A} (a : nd A) (idx : list Z) : option A :=
  if inside (nshape a) idx then Znth (ndata a) (ravel (nshape a) idx) else None.
(** The array of a given shape with value [f idx] at [idx]. *)
Definition mk {A} (s : list Z) (f : list Z -> A) : nd A := Nd s (map f (indices s)).
(** Elementwise operations. *)
Definition nmap {A B} (f : A -> B) (a : nd A) : nd B := Nd (nshape a) (map f (ndata a)).
Definition nzip {A B C} (f : A -> B -> C) (a : nd A) (b : nd B) : nd C :=
  Nd (nshape a) (map (fun uv => f (fst uv) (snd uv)) (combine (ndata a) (ndata b))).
(** [np.any] *)
Definition nany (a : nd bool) : bool := existsb (fun b => b) (ndata a).

(** A proper array: sizes are non-negative and match the data. *)
Definition wf {A} (a : nd A) : Prop :=
  (forall n, In n (nshape a) -> 0 <= n) /\ zlen (ndata a) = nd_size (nshape a).
