(** Colours and colour scales. *)
From Coq Require Import Ascii String.
From Verif Require Import Np Fl.
Open Scope Z_scope.

(** Red, green and blue. *)
Record t3 (A : Type) := T3 { red : A; green : A; blue : A }.
Arguments T3 {A}. Arguments red {A}. Arguments green {A}. Arguments blue {A}.
Definition t3map {A B} (f : A -> B) (c : t3 A) : t3 B := T3 (f (red c)) (f (green c)) (f (blue c)).

(** Colour strings: "rgb(r, g, b)", "#..." or anything else (in particular
    "rgba(...)" , which literal_eval rejects with a ValueError). *)
Inductive color := RgbText (c : t3 Qc) | BadRgbText | HexText (s : string) | OtherText.
(** Colour scales: pairs (position, colour) or colours alone. *)
Inductive colorscale_t := Stops (l : list (Qc * color)) | Colors (l : list color).
