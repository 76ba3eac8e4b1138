(** Specification for the scaling of diagrams by a summary of their amplitudes
    (C80). *)
From Coq Require Import Reals.
From Verif Require Import Np Fl DiagTypes RNp.
Open Scope Z_scope.

(** [s] is the greatest entry of a table without NaN. *)
Definition is_table_max (A : list (list (option R))) (s : R) : Prop :=
  (exists row, In row A /\ In (Some s) row) /\
  forall row o, In row A -> In o row -> exists v, o = Some v /\ (v <= s)%R.
(** A summary of tables that commutes with changes of units. *)
Definition homogeneous (f : list (list (option R)) -> res (option R)) : Prop :=
  forall k A, (0 < k)%R ->
    f (map (map (option_map (fun v => k * v)%R)) A) = rmap (option_map (fun v => k * v)%R) (f A).
(** Diagrams with real coordinates: rows (birth, death, dimension). *)
Definition rdiagram := list (R * R * fl).
(** [Z] has the rows of [Y], with births and deaths [f] of those of [Y]. *)
Definition coordinates (f : R -> R) (Y Z : list rdiagram) : Prop :=
  Forall2 (Forall2 (fun p p' => p' = (f (fst (fst p)), f (snd (fst p)), snd p))) Y Z.
