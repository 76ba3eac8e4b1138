(** Model of gtda/curves: preprocessing.py (Derivative), features.py and _functions.py
    (StandardFeatures).  A collection is a list of samples, a sample a list of channels, a channel a
    list of values. *)
From Coq Require Import String.
From Verif Require Import Np Fl VecModel ImgModel.
Open Scope Z_scope.

(** numpy (external): np.diff(x, n=order) of a 1D array *)
Definition diff1 (x : list Qc) : list Qc := map (fun p => (fst p - snd p)%Qc) (combine (tl x) x).
Definition np_diff (order : nat) (x : list Qc) : list Qc := Nat.iter order diff1 x.

(** preprocessing.py lines 71-87: fit; the shape of X is (n_samples, n_channels, n_bins), order is
    a positive integer *)
Definition derivative_fit (order : nat) (n_bins : Z) : res unit :=
  if n_bins <=? Z.of_nat order then Err ValueError else Ok tt.
(** lines 108-119: transform, after the checks of the input *)
Definition derivative_transform (order : nat) (n_jobs : Z) (X : list (list (list Qc))) : res (list (list (list Qc))) :=
  parallel (fun b => Ok (map (map (np_diff order)) b)) n_jobs X.

(** ** StandardFeatures *)
Section Features.
Context {V : Type}.
(** Keyword arguments and their values; is the value an ndarray? *)
Notation params := (list (string * V)).
Variable is_array : V -> bool.
(** numpy's np.argmax, np.mean, ... on a 1D array, by the name used here (external).  With axis=-1
    they apply to each channel of each sample; np.average's weights are then one-dimensional. *)
Variable reduce : string -> params -> list Qc -> res Qc.

(** What a function returns: a scalar or a 1D array. *)
Inductive out := Sc (a : Qc) | Vc (l : list Qc).
Definition np_ravel (o : out) : list Qc := match o with Sc a => [a] | Vc l => l end.
(** The arguments function and function_params. *)
Inductive func := Name (s : string) | Fun (f : params -> list Qc -> res out).
Inductive function_arg := FOne (f : func) | FMany (l : list (option func)).
Inductive params_arg := PNone | PDict (p : params) | PMany (l : list (option params)).

(** _functions.py lines 9-19 *)
Definition available : list string :=
  ["identity"; "argmax"; "argmin"; "min"; "max"; "mean"; "std"; "median"; "average"]%string.
Definition is_available (s : string) : bool := existsb (String.eqb s) available.
(** validate_params(p, _AVAILABLE_FUNCTIONS[s]) *)
Fixpoint check_params (s : string) (p : params) : res unit :=
  match p with
  | [] => Ok tt
  | (k, v) :: t =>
      if (String.eqb s "average" && String.eqb k "weights")%bool then
        if is_array v then check_params s t else Err TypeError
      else Err KeyError
  end.
(** features.py lines 94-124: of a list only the strings are looked at, in the second attempt *)
Definition validate_features (function : function_arg) (function_params : params_arg) : res unit :=
  do _ <- match function with
          | FOne (Name s) => if is_available s then Ok tt else Err ValueError
          | FOne (Fun _) => Ok tt
          | FMany l => if forallb (fun f => match f with Some (Name s) => is_available s | _ => true end) l
                       then Ok tt else Err ValueError
          end;
  match function, function_params with
  | FMany _, PDict _ => Err TypeError
  | FOne _, PMany _ => Err TypeError
  | _, _ => Ok tt
  end.

(** effective_function_ and effective_function_params_: a recipe by its name, or tuples *)
Inductive effective := EOne (s : string) (p : params) | EMany (l : list (option func * params)).
(** the loop of lines 195-203 *)
Fixpoint effective_loop (l : list (option func * option params)) : res (list (option func * params)) :=
  match l with
  | [] => Ok []
  | (f, p) :: t =>
      do _ <- match f with
              | Some (Name s) => match p with None => Err AttributeError | Some p => check_params s p end
              | _ => Ok tt
              end;
      do r <- effective_loop t;
      Ok ((f, match p with None => [] | Some p => p end) :: r)
  end.
(** features.py lines 126-208: fit on an array with n_channels channels *)
Definition features_fit (function : function_arg) (function_params : params_arg) (n_channels : Z) : res effective :=
  do _ <- validate_features function function_params;
  match function with
  | FOne (Name s) =>
      match function_params with
      | PDict p => do _ <- check_params s p; Ok (EOne s p)
      | _ => Ok (EOne s [])
      end
  | FOne (Fun f) =>
      let p := match function_params with PDict p => p | _ => [] end in
      Ok (EMany (repeat (Some (Fun f), p) (Z.to_nat n_channels)))
  | FMany l =>
      if negb (zlen l =? n_channels) then Err ValueError else
      do ps <- match function_params with
               | PMany ps => if negb (zlen ps =? n_channels) then Err ValueError else Ok ps
               | _ => Ok (repeat (Some []) (Z.to_nat n_channels))
               end;
      do r <- effective_loop (combine l ps); Ok (EMany r)
  end.

(** A call in _functions.py line 42.  The recipe of "identity" needs the argument axis, which is
    not given here: TypeError. *)
Definition call (f : func) (p : params) (x : list Qc) : res out :=
  match f with
  | Name s => if String.eqb s "identity" then Err TypeError else do a <- reduce s p x; Ok (Sc a)
  | Fun f => f p x
  end.
(** flat.reshape(n, -1), n > 0 *)
Definition np_reshape (flat : list Qc) (n : Z) : res (list (list Qc)) :=
  if negb (zlen flat mod n =? 0) then Err ValueError else
  let w := zlen flat / n in
  Ok (tabZ n (fun i => py_sub (Some (i * w)) (Some ((i + 1) * w)) flat)).
(** _functions.py lines 34-52; X[i, j] for the channels with a function, sample by sample.  The
    array of the results (numpy before 1.24: an array of objects when their sizes differ) and the
    concatenation after ravel hold the values of all results in order. *)
Definition parallel_featurization (e : effective) (X : list (list (list Qc))) : res (list (list Qc)) :=
  match e with
  | EOne s p =>
      if String.eqb s "identity" then
        match p with [] => Ok (map (@concat _) X) | _ => Err TypeError end
      else mapM (mapM (reduce s p)) X
  | EMany fs =>
      let calls := flat_map (fun x => flat_map (fun fx => match fst (fst fx) with
                                                          | Some f => [(f, snd (fst fx), snd fx)]
                                                          | None => [] end) (combine fs x)) X in
      do outs <- mapM (fun c => let '(f, p, x) := c in call f p x) calls;
      np_reshape (concat (map np_ravel outs)) (zlen X)
  end.
(** features.py lines 230-243: transform of a non-empty 3D array with n channels, for an estimator
    fitted on n_channels channels *)
Definition features_transform (e : effective) (n_channels : Z) (n : Z) (X : list (list (list Qc))) : res (list (list Qc)) :=
  if negb (n =? n_channels) then Err ValueError else parallel_featurization e X.
End Features.
Arguments func V : clear implicits.
Arguments function_arg V : clear implicits.
Arguments params_arg V : clear implicits.
Arguments effective V : clear implicits.
