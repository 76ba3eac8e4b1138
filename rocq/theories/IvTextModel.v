(** Model of Interval's __hash__, __repr__ and __str__ (gtda/utils/intervals.py lines 104-105, 117-128),
    and of what Python makes of them: sets of intervals, and evaluating a representation.

    The representation of a number and the hash of a tuple are parameters.  Interval defines no
    __eq__, no __setattr__ and no __slots__: equality is identity, attributes can be assigned. *)
From Coq Require Import String Ascii.
From Verif Require Import Np Fl IntervalModel.
Open Scope string_scope.
Open Scope list_scope.
Open Scope Z_scope.

(** intervals.py line 30 *)
Definition closed_name (c : closure) : string :=
  match c with CLeft => "left" | CRight => "right" | CBoth => "both" | CNeither => "neither" end.
(** intervals.py lines 117-122 __repr__ *)
Definition iv_repr (num_repr : fl -> string) (i : interval) : string :=
  ("Interval(" ++ num_repr (iv_left i) ++ ", " ++ num_repr (iv_right i) ++ ", closed='" ++ closed_name (iv_closed i) ++ "')")%string.
(** intervals.py lines 124-128 __str__ *)
Definition iv_str (num_str : fl -> string) (i : interval) : string :=
  ((if closed_left i then "[" else "(") ++ num_str (iv_left i) ++ ", " ++ num_str (iv_right i) ++ (if closed_right i then "]" else ")"))%string.
(** intervals.py lines 104-105 __hash__ *)
Definition iv_hash (tuple_hash : fl -> fl -> string -> Z) (i : interval) : Z :=
  tuple_hash (iv_left i) (iv_right i) (closed_name (iv_closed i)).

(** Python's eval on the texts of this form: [read] gives the value of an expression, None if
    it raises (NameError for inf, which Python does not define). *)
Fixpoint cut (c : ascii) (s : string) : option (string * string) :=
  match s with
  | EmptyString => None
  | String a s => if Ascii.eqb a c then Some (EmptyString, s) else option_map (fun r => (String a (fst r), snd r)) (cut c s)
  end.
Fixpoint strip (prefix s : string) : option string :=
  match prefix, s with
  | EmptyString, _ => Some s
  | String a p, String b s => if Ascii.eqb a b then strip p s else None
  | _, _ => None
  end.
Definition closed_of (s : string) : option closure :=
  if String.eqb s "left" then Some CLeft else if String.eqb s "right" then Some CRight
  else if String.eqb s "both" then Some CBoth else if String.eqb s "neither" then Some CNeither else None.
Definition or_error {A} (o : option A) : res A := match o with Some a => Ok a | None => Err ValueError end.
Definition eval_interval (read : string -> option fl) (s : string) : res interval :=
  do s <- or_error (strip "Interval(" s);
  do lr <- or_error (cut "," s);
  do l <- or_error (read (fst lr));
  do s <- or_error (strip " " (snd lr));
  do rc <- or_error (cut "," s);
  do r <- or_error (read (fst rc));
  do s <- or_error (strip " closed='" (snd rc));
  do ce <- or_error (cut "'" s);
  if String.eqb (snd ce) ")" then interval_call [AReal l; AReal r] (Some (closed_of (fst ce))) else Err ValueError.

(** A set of intervals: the hash of each element when it was added, and its address.  An element is
    found by its present hash and by identity, since there is no __eq__. *)
Definition heap := Z -> interval.
Definition pyset := list (Z * Z).
Definition in_set tuple_hash (h : heap) (s : pyset) (a : Z) : bool :=
  existsb (fun e => (fst e =? iv_hash tuple_hash (h a)) && (snd e =? a)) s.
Definition add_to_set tuple_hash (h : heap) (s : pyset) (a : Z) : pyset :=
  if in_set tuple_hash h s a then s else (iv_hash tuple_hash (h a), a) :: s.
(** i.left = v *)
Definition assign_left (h : heap) (a : Z) (v : fl) : heap :=
  fun b => if b =? a then MkInterval v (iv_right (h a)) (iv_closed (h a)) else h b.
