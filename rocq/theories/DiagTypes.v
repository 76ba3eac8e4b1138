(** Data types shared by the models and specifications of persistence-diagram
    code. *)
From Verif Require Import Np Fl.
Open Scope Z_scope.

(** One row of a diagram: columns 0, 1, 2. *)
Record pt := Pt { pb : fl; pd : fl; pq : fl }.
Definition diagram := list pt.

(** Backend outputs: lists of subdiagrams indexed by dimension (ripser,
    flagser), or one list of (dimension, (birth, death)) (GUDHI). *)
Inductive backend : Type :=
| ByDimension (subs : list (list (fl * fl)))       (* "ripser", "flagser" *)
| Tagged (pers : list (Z * (fl * fl))).            (* "gudhi" *)
