(** Parameters and widgets of the interactive Mapper plot. *)
From Coq Require Import Ascii String.
From Verif Require Import Np Fl.
Open Scope Z_scope.

(** Values of parameters: Python integers, floats, booleans, strings, anything else. *)
Inductive pval := PInt (z : Z) | PFloat (q : Qc) | PBool (b : bool) | PStr (s : string) | POther (s : string).
(** Parameters by name. *)
Notation params := (list (string * pval)).
