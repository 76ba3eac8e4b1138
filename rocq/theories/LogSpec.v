(** Specification for C97: the log of an interactive plot. *)
From Coq Require Import String.
From Verif Require Import Np LogModel.
Open Scope string_scope.
Open Scope list_scope.
Open Scope Z_scope.

(** How many plots a history opens. *)
Definition opened (h : list event) : Z := zlen (filter (fun e => match e with Open => true | _ => false end) h).
Definition line_end : string := String (Ascii.ascii_of_nat 10) EmptyString.
(** The text of a message, and of an error with its traceback. *)
Definition info_text (time message : string) : string := (time ++ " - [INFO] " ++ message ++ line_end)%string.
Definition error_text (time : string) (first_lines : list string) (last_line : string) : string :=
  (time ++ " - [ERROR] " ++ last_line ++ line_end ++ String.concat line_end (first_lines ++ [last_line]) ++ line_end)%string.
(** The messages of an event, in order of time. *)
Definition messages (asctime : Z -> string) (e : event) : list string :=
  match e with
  | Open => []
  | Change _ t _ Updated => [info_text (asctime t) "Updating figure..."]
  | Change _ _ t' (Refused l s) => [error_text (asctime t') l s]
  | Change _ t t' (Failed l s) => [info_text (asctime t) "Updating figure..."; error_text (asctime t') l s]
  end.
(** The event concerns the k-th plot: it opens it or changes one of its parameters. *)
Definition concerns (k : Z) (before : list event) (e : event) : Prop :=
  match e with Open => opened before = k | Change k' _ _ _ => k' = k /\ 0 <= k < opened before end.
Definition changes (k : Z) (e : event) : Prop := match e with Open => False | Change k' _ _ _ => k' = k end.
(** The last thing that was tried with the parameters went well. *)
Definition went_well (e : event) : bool := match e with Open | Change _ _ _ Updated => true | _ => false end.
