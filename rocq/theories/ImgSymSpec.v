(** Specification for C91: reflections and axis permutations of images, and
    images with more activated pixels. *)
From Coq Require Import Reals Permutation.
From Verif Require Import Np Nd ImgSpec ImgSpec2.
Open Scope Z_scope.

(** [sigma] maps the pixels of shape [s] one to one onto the pixels of shape
    [s'], and the shapes have the same sizes up to order. *)
Definition grid_bijection (s s' : list Z) (sigma : list Z -> list Z) : Prop :=
  Permutation s s' /\
  (forall p, inside s p = true -> inside s' (sigma p) = true) /\
  (forall p q, inside s p = true -> inside s q = true -> sigma p = sigma q -> p = q) /\
  (forall q, inside s' q = true -> exists p, inside s p = true /\ sigma p = q).
(** ... and keeps taxicab distances. *)
Definition grid_symmetry (s s' : list Z) (sigma : list Z -> list Z) : Prop :=
  grid_bijection s s' sigma /\
  forall p q, inside s p = true -> inside s q = true -> taxicab (sigma p) (sigma q) = taxicab p q.
(** [y'] is the image [y] moved along [sigma]. *)
Definition moved {A} (s s' : list Z) (sigma : list Z -> list Z) (y y' : nd A) : Prop :=
  nshape y = s /\ nshape y' = s' /\
  forall p, inside s p = true -> exists v, nget y p = Some v /\ nget y' (sigma p) = Some v.

(** Reflection of axis [k]. *)
Fixpoint flip (k : nat) (s p : list Z) : list Z :=
  match s, p with
  | n :: s, i :: p => match k with O => (n - 1 - i) :: p | S k => i :: flip k s p end
  | _, _ => p
  end.
(** Axis permutation: axis [i] of the result is axis [nth i a] of the argument. *)
Definition reorder (a : list nat) (p : list Z) : list Z := map (fun k => nth k p 0) a.

(** [y'] has all activated pixels of [y], and maybe more. *)
Definition more_active (y y' : nd Z) : Prop :=
  nshape y' = nshape y /\ forall p, nget y p = Some 1 -> nget y' p = Some 1.
(** Pixel by pixel comparison. *)
Definition everywhere {A} (P : A -> A -> Prop) (r r' : nd A) : Prop :=
  nshape r' = nshape r /\
  forall p, inside (nshape r) p = true -> exists v v', nget r p = Some v /\ nget r' p = Some v' /\ P v v'.
(** From one entry per axis of the images to (column, row, depth), the order of
    directions and centers, and back. *)
Definition col_row {A} (e : list A) : list A := match e with r :: c :: t => c :: r :: t | _ => e end.
(** Sign change of entry [k]. *)
Fixpoint opposite (k : nat) (e : list R) : list R :=
  match e with
  | [] => []
  | a :: e => match k with O => (- a)%R :: e | S k => a :: opposite k e end
  end.
Definition reorder_R (a : list nat) (e : list R) : list R := map (fun k => nth k e 0%R) a.
(** Pixels at taxicab distance one have values that differ by at most one. *)
Definition neighbours_within_one (s : list Z) (r : nd Z) : Prop :=
  nshape r = s /\
  forall p q, inside s p = true -> inside s q = true -> taxicab p q = 1 ->
    exists v w, nget r p = Some v /\ nget r q = Some w /\ Z.abs (v - w) <= 1.
