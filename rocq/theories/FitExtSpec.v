(** Specification for C96: what fit keeps of the training diagrams. *)
From Verif Require Import Np Fl DiagTypes VecSpec.
Open Scope Z_scope.

(** The first training diagrams have points of the same dimensions. *)
Definition same_labels (X X' : list diagram) : Prop :=
  forall q, In q (map pq (hd [] X)) <-> In q (map pq (hd [] X')).
(** The same least and the same greatest value. *)
Definition same_extent (P P' : Qc -> Prop) : Prop :=
  forall v, (is_least v P <-> is_least v P') /\ (is_greatest v P <-> is_greatest v P').
(** All diagrams have points of the same dimensions, as check_diagrams demands. *)
Definition uniform (X : list diagram) : Prop :=
  forall x x' q, In x X -> In x' X -> In q (map pq x) <-> In q (map pq x').
