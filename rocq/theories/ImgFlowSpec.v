(** Specification for C94: features of images that do not depend on the
    orientation of the images. *)
From Coq Require Import Permutation.
From Verif Require Import Np Fl Nd DiagTypes HomModel HomSpec ImgSpec ImgSymSpec.
Open Scope Z_scope.

(** The same diagrams, with the rows of each in any order. *)
Definition reordered (X X' : list diagram) : Prop := Forall2 (@Permutation pt) X X'.

(** The classes of one dimension in an answer of GUDHI, in its order. *)
Definition classes (dim : Z) (l : list (Z * (fl * fl))) : list (fl * fl) :=
  map snd (filter (fun e => fst e =? dim) l).
(** Two answers with the same classes, listed in any order after the first of
    each dimension (GUDHI lists the class that never dies first). *)
Definition same_classes (l l' : list (Z * (fl * fl))) : Prop :=
  forall dim, (classes dim l = [] /\ classes dim l' = []) \/
    exists e t t', classes dim l = e :: t /\ classes dim l' = e :: t' /\ Permutation t t'.

(** [cells] are the pixels of [x] with the first index moving fastest. *)
Definition column_major_cells (x : nd fl) (cells : list (option fl)) : Prop :=
  zlen cells = zlen (ndata x) /\
  forall idx, inside (nshape x) idx = true -> exists v, nget x idx = Some v /\ Znth cells (column_major (nshape x) idx) = Some (Some v).

(** What is assumed of GUDHI's non-periodic cubical complexes: an image and the
    image moved have the same classes; *)
Definition blind_to_orientation (gudhi : list Z * list (option fl) * option (list bool) -> list (Z * (fl * fl)))
  (s s' : list Z) (sigma : list Z -> list Z) : Prop :=
  forall x x' cells cells', wf x -> wf x' -> moved s s' sigma x x' ->
    column_major_cells x cells -> column_major_cells x' cells' ->
    same_classes (gudhi (s, cells, None)) (gudhi (s', cells', None)).
(** births and deaths are pixels, or plus infinity. *)
Definition values_are_cells (gudhi : list Z * list (option fl) * option (list bool) -> list (Z * (fl * fl))) : Prop :=
  forall s cells dim b d, In (dim, (b, d)) (gudhi (s, cells, None)) ->
    (b = PInf \/ In (Some b) cells) /\ (d = PInf \/ In (Some d) cells).

(** The ways of passing images of one shape: a list, or one array. *)
Definition passed_as (s : list Z) (X : list (nd fl)) (F : HomModel.images) : Prop :=
  F = ListOf X \/ F = ArrayOf (Nd (zlen X :: s) (concat (map ndata X))).
Definition finite_pixels (X : list (nd fl)) : Prop :=
  forall x v, In x X -> In v (ndata x) -> exists q, v = Fin q.
