(** Specifications for the persistent homology transformers (C14-C16, C62), independent of the
    model. *)
From Verif Require Import Np Fl DiagTypes DiagSpec Nd.
Open Scope Z_scope.

(** The smallest and the largest element of a list. *)
Definition least (l : list Z) (m : Z) : Prop := In m l /\ forall x, In x l -> m <= x.
Definition greatest (l : list Z) (m : Z) : Prop := In m l /\ forall x, In x l -> x <= m.

(** The rows of a diagram which carry information: birth strictly before death. *)
Definition meaningful (x : diagram) : diagram := filter (fun p => flt (pb p) (pd p)) x.

(** [R] lists, for each sample of [X] and in the same order, a diagram whose meaningful rows in
    each requested dimension are the points of that sample and no other; it has no rows in
    other dimensions; all the diagrams have the same length and the same third column. *)
Definition is_diagrams_of {A} (points : A -> Z -> diagram) (dims : list Z) (X : list A)
  (R : list diagram) : Prop :=
  zlen R = zlen X /\
  (forall i x r, Znth X i = Some x -> Znth R i = Some r ->
     (forall dim, In dim dims -> meaningful (rows_of (fz dim) r) = points x dim) /\
     (forall p, In p r -> exists dim, In dim dims /\ pq p = fz dim)) /\
  (forall r r', In r R -> In r' R -> map pq r = map pq r') /\
  (forall r dim, In r R -> In dim dims -> rows_of (fz dim) r <> []).

(** Compressed storage of a list of rows (scipy): row k is indices[indptr[k]:indptr[k+1]]. *)
Definition csr (rows : list (list Z)) (indptr indices : list Z) : Prop :=
  indices = concat rows /\ zlen indptr = zlen rows + 1 /\ Znth indptr 0 = Some 0 /\
  forall k r a b, Znth rows k = Some r -> Znth indptr k = Some a -> Znth indptr (k + 1) = Some b ->
    b = a + zlen r.

(** Position of an index in column-major (Fortran) order: the first index moves fastest. *)
Fixpoint column_major (shape idx : list Z) : Z :=
  match shape, idx with
  | n :: s, i :: t => i + n * column_major s t
  | _, _ => 0
  end.
