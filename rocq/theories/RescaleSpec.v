(** Specification for the rescalings. *)
From Coq Require Import Reals Permutation.
From Verif Require Import Np.
From Verif Require Export GraphSpec.
Open Scope Z_scope.

(** How many values of a list satisfy a decidable property. *)
Definition how_many {A} {P : A -> Prop} (dec : forall x, {P x} + {~ P x}) (l : list A) : Z :=
  zlen (filter (fun x => if dec x then true else false) l).
(** v is the k-th smallest value of the row, counting from 0: at most k values are smaller, more
    than k are smaller or equal. *)
Definition kth_smallest (k : Z) (row : list R) (v : R) : Prop :=
  how_many (fun x => Rlt_dec x v) row <= k < how_many (fun x => Rle_dec x v) row.
(** indices that sort a row *)
Definition sorts (row : list R) (idx : list Z) : Prop :=
  Permutation idx (arange (zlen row)) /\
  forall p q i j x y, p < q -> Znth idx p = Some i -> Znth idx q = Some j ->
    Znth row i = Some x -> Znth row j = Some y -> (x <= y)%R.
