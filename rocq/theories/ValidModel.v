(** Model of gtda/utils/validation.py: validate_params, check_point_clouds and
    check_collection (check_diagrams is in DiagModel.v). *)
From Coq Require Import String.
From Verif Require Import Np Fl.
Open Scope Z_scope.

(** ** Python values and references, as far as validate_params looks at them *)
(** Classes: the four container classes of validation.py line 96, NoneType, and any
    other class (numbered). *)
Inductive cls := CList | CTuple | CArray | CDict | CNoneType | CClass (c : Z).
Inductive value :=
| VNone
| VScalar (s : Z)                              (* any other object, by identity *)
| VList (l : list value)
| VTuple (l : list value)
| VArray (l : list value)                      (* iteration over the first axis *)
| VDict (l : list (string * value)).

(** validation.py lines 102, 115, 116, 140: the entries of a reference; a missing key is
    [None].  'in' is known by [parameter in ref_in], 'other' by the truth value
    of what the callable returns; both may raise.  'of' is read as a reference
    for the elements or, for dictionaries, as a dictionary of references. *)
Inductive tspec := One (c : cls) | Many (l : list cls).
Inductive ref :=
| NoRef                                        (* the reference is None *)
| Ref (t : option tspec) (r_in : option (value -> res bool)) (r_other : option (value -> res bool)) (r_of : rof)
with rof := OfNone | OfElem (r : ref) | OfDict (l : list (string * ref)).

(** dict lookup *)
Fixpoint lookup {A} (k : string) (l : list (string * A)) : option A :=
  match l with
  | [] => None
  | (k', x) :: t => if String.eqb k k' then Some x else lookup k t
  end.

Section Validate.
(** [isinstance] for the classes other than the containers and NoneType, and iteration over
    objects which are not containers (strings, say; TypeError if not iterable). *)
Variable inst : value -> Z -> bool.
Variable iter : value -> res (list value).

Definition isinstance1 (v : value) (c : cls) : bool :=
  match c, v with
  | CList, VList _ | CTuple, VTuple _ | CArray, VArray _ | CDict, VDict _ | CNoneType, VNone => true
  | CClass c, _ => inst v c
  | _, _ => false
  end.
Definition isinstance (v : value) (t : tspec) : bool :=
  match t with One c => isinstance1 v c | Many l => existsb (isinstance1 v) l end.

(** validation.py lines 113-114: _ref_type in types_tuple, isinstance(_parameter, types_tuple) *)
Definition ref_is_container (t : option tspec) : bool :=
  match t with Some (One (CList | CTuple | CArray | CDict)) => true | _ => false end.
Definition is_container (v : value) : bool :=
  match v with VList _ | VTuple _ | VArray _ | VDict _ => true | _ => false end.

(** What _validate_params_single returns: something false, the class dict, or another true object *)
Inductive ret := RFalse | RDict | RTrue.

(** validation.py lines 98-128 _validate_params_single *)
Definition validate_single (v : value) (r : ref) : res ret :=
  match r with
  | NoRef => Ok RFalse
  | Ref t r_in r_other _ =>
      if negb (match t with None => true | Some t => isinstance v t end) then Err TypeError
      else if negb (ref_is_container t || is_container v) then
        do _ <- match v, r_in with
                | VNone, _ | _, None => Ok tt
                | _, Some f => do b <- f v; if b : bool then Ok tt else Err ValueError
                end;
        match r_other with
        | None => Ok RFalse
        | Some g => do b <- g v; Ok (if b : bool then RTrue else RFalse)
        end
      else Ok match t with None => RFalse | Some (One CDict) => RDict | Some _ => RTrue end
  end.

(** enumerate(parameter), line 147: the keys of a dictionary are strings, given by [key_value] *)
Variable key_value : string -> value.
Definition elements (v : value) : res (list value) :=
  match v with
  | VList l | VTuple l | VArray l => Ok l
  | VDict l => Ok (map (fun p => key_value (fst p)) l)
  | _ => iter v
  end.
Fixpoint validate_elements (l : list value) (r : ref) : res unit :=
  match l with
  | [] => Ok tt
  | x :: t => do _ <- validate_single x r; validate_elements t r
  end.

(** validation.py lines 137-149: the body of the loop for one parameter, with the recursive call of
    line 145 inlined.  A reference whose 'of' does not have the structure
    required by its use is outside of the model (RuntimeError). *)
Fixpoint validate_entry (v : value) (r : ref) : res unit :=
  do ret <- validate_single v r;
  match ret, r with
  | RFalse, _ | _, NoRef | _, Ref _ _ _ OfNone => Ok tt
  | RDict, Ref _ _ _ (OfDict refs) =>
      match v with
      | VDict l =>
          (fix loop l :=
             match l with
             | [] => Ok tt
             | (name, x) :: t =>
                 match lookup name refs with
                 | None => Err KeyError
                 | Some r' => do _ <- validate_entry x r'; loop t
                 end
             end) l
      | _ => Err RuntimeError
      end
  | RTrue, Ref _ _ _ (OfElem e) => do l <- elements v; validate_elements l e
  | _, _ => Err RuntimeError
  end.
(** validation.py lines 130-149 _validate_params *)
Fixpoint validate_loop (params : list (string * value)) (refs : list (string * ref)) : res unit :=
  match params with
  | [] => Ok tt
  | (name, v) :: t =>
      match lookup name refs with
      | None => Err KeyError
      | Some r => do _ <- validate_entry v r; validate_loop t refs
      end
  end.
(** validation.py lines 199-202 validate_params *)
Definition validate_params (params : list (string * value)) (refs : list (string * ref)) (exclude : option (list string)) : res unit :=
  let exclude_ := match exclude with None => [] | Some l => l end in
  validate_loop (filter (fun p => negb (existsb (String.eqb (fst p)) exclude_)) params) refs.
End Validate.

(** ** check_point_clouds *)
(** An entry of a collection: an ndarray or sparse matrix (with attributes shape and ndim), or
    an array-like object without a shape attribute (nested lists), which numpy
    converts to the given shape and entries.  Only the stored entries of a sparse matrix
    are looked at. *)
Inductive kind := Dense | Sparse | Nested.
Record arr := MkArr { a_kind : kind; a_shape : list Z; a_data : list fl }.

Inductive finite_opt := FTrue | FFalse | FAllowNan.
(** sklearn.utils.check_array for the arguments which matter here *)
Definition all_finite_ok (f : finite_opt) (l : list fl) : bool :=
  match f with
  | FTrue => forallb isfin l
  | FAllowNan => forallb (fun x => isfin x || isnan x) l
  | FFalse => true
  end.
Definition min_size_ok (shape : list Z) : bool :=
  match shape with
  | [n] => 1 <=? n
  | [n; m] => (1 <=? n) && (1 <=? m)
  | n :: _ => 1 <=? n
  | [] => false
  end.
Definition check_array (ensure_2d allow_nd accept_sparse : bool) (f : finite_opt) (x : arr) : res arr :=
  match a_kind x with
  | Sparse =>
      if negb accept_sparse then Err TypeError
      else if negb (all_finite_ok f (a_data x) && min_size_ok (a_shape x)) then Err ValueError
      else Ok x
  | _ =>
      if ensure_2d && (zlen (a_shape x) <? 2) then Err ValueError
      else if negb allow_nd && (3 <=? zlen (a_shape x)) then Err ValueError
      else if negb (all_finite_ok f (a_data x)) then Err ValueError
      else if zlen (a_shape x) =? 0 then Err TypeError
      else if negb (min_size_ok (a_shape x)) then Err ValueError
      else Ok (MkArr Dense (a_shape x) (a_data x))
  end.
(** validation.py lines 14-25 _check_array_mod *)
Definition check_array_mod (ensure_2d allow_nd accept_sparse : bool) (f : finite_opt) (x : arr) : res arr :=
  match f with
  | FFalse =>
      do xnew <- check_array ensure_2d allow_nd accept_sparse f x;
      if existsb isnan (a_data xnew) then Err ValueError else Ok xnew
  | _ => check_array ensure_2d allow_nd accept_sparse f x
  end.

(** The collection: an object with shape and ndim (of kind Dense or Sparse), or a list. *)
Inductive collection := CArr (x : arr) | CSeq (l : list arr).
(** The result: the array, a list, or the array obtained by stacking the entries; and whether a
    DataDimensionalityWarning is emitted. *)
Inductive checked := OutArr (x : arr) | OutList (l : list arr) | OutStacked (l : list arr).

Definition shape_eqb (s t : list Z) : bool := (zlen s =? zlen t) && forallb (fun p => fst p =? snd p) (combine s t).
(** x.shape: AttributeError for nested lists.  x.shape[0] == x.shape[1] *)
Definition get_shape (x : arr) : res (list Z) :=
  match a_kind x with Nested => Err AttributeError | _ => Ok (a_shape x) end.
Definition square (x : arr) : res bool :=
  do s <- get_shape x; do a <- py_get s 0; do b <- py_get s 1; Ok (a =? b).

(** validation.py lines 277-288: one entry; a ValueError is recorded, other exceptions propagate *)
Inductive caught := Kept (x : arr) | Failed.
Definition try_entry (c : res arr) : res caught :=
  match c with
  | Ok x => Ok (Kept x)
  | Err ValueError => Ok Failed
  | Err e => Err e
  end.
Definition check_entry (distance_matrices accept_sparse : bool) (f : finite_opt) (x : arr) : res arr :=
  do xnew <- check_array_mod true false accept_sparse f x;
  if distance_matrices && negb (match a_kind xnew with Sparse => true | _ => false end) then
    do b <- square x;
    if b : bool then Ok xnew else Err ValueError
  else Ok xnew.
Definition kept (l : list caught) : list arr := flat_map (fun c => match c with Kept x => [x] | Failed => [] end) l.
Definition has_failed (l : list caught) : bool := existsb (fun c => match c with Failed => true | _ => false end) l.

(** validation.py lines 205-309 check_point_clouds; [f = None] when force_all_finite is not passed *)
Definition check_point_clouds (X : collection) (distance_matrices accept_sparse : bool) (f : option finite_opt) : res (checked * bool) :=
  let f := match f with Some f => f | None => if distance_matrices then FFalse else FTrue end in
  match X with
  | CArr x =>
      match a_shape x with
      | [_; n; m] =>
          if negb (n =? m) && distance_matrices then Err ValueError
          else
            do xnew <- check_array_mod true true accept_sparse f x;
            Ok (OutArr xnew, (n =? m) && negb distance_matrices)
      | _ => Err ValueError
      end
  | CSeq l =>
      do cs <- mapM (fun x => try_entry (check_entry distance_matrices accept_sparse f x)) l;
      if has_failed cs then Err ValueError
      else
        do warned <- (if distance_matrices then Ok false
                      else do bs <- mapM square l; Ok (forallb (fun b => b) bs));
        do x0 <- py_get l 0;
        do ref_dim <- get_shape x0;
        do ss <- mapM get_shape (tl l);
        if forallb (fun s => shape_eqb s ref_dim) ss then Ok (OutStacked (kept cs), warned)
        else Ok (OutList (kept cs), warned)
  end.

(** validation.py lines 312-355 check_collection; [f = None]: the default of check_array *)
Definition check_collection (X : collection) (accept_sparse : bool) (f : option finite_opt) : res checked :=
  let f := match f with Some f => f | None => FTrue end in
  match X with
  | CArr x => do xnew <- check_array_mod true true accept_sparse f x; Ok (OutArr xnew)
  | CSeq l =>
      do cs <- mapM (fun x => try_entry (check_array_mod false true accept_sparse f x)) l;
      if has_failed cs then Err ValueError else Ok (OutList (kept cs))
  end.
