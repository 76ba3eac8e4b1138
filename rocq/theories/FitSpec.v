(* What the histories of an estimator must satisfy, in terms of what the user
   sees: hyperparameters, calls, returned values and exceptions. *)
From Coq Require Import List String Bool.
From Verif Require Import Np FitTypes.
Import ListNotations.
Open Scope string_scope.
Open Scope list_scope.

(* the object after a history, and what was seen during it *)
Definition after {V} (w : world V) (c : cls) (o : obj V) (h : list (op V)) : obj V := fst (run w c o h).
Definition seen {V} (w : world V) (c : cls) (o : obj V) (h : list (op V)) : list (obs V) := snd (run w c o h).

(* what one call of fit shows: Self if it succeeds, else the exception *)
Definition fit_shows {V} (w : world V) (c : cls) (o : obj V) (X : V) : obs V := snd (run_fit w c o X).
Definition fit_leaves {V} (w : world V) (c : cls) (o : obj V) (X : V) : obj V := fst (run_fit w c o X).

(* histories that look at documented attributes only / at no attribute *)
Definition documented {V} (c : cls) (h : list (op V)) : Prop := forall a, In (Get a) h -> In a (c_public c).
Definition no_get {V} (h : list (op V)) : Prop := forall a, ~ In (Get a) h.
Definition no_set_params {V} (h : list (op V)) : Prop := forall p, ~ In (SetParams p) h.

(* no call of fit succeeds during the history *)
Definition no_success {V} (w : world V) (c : cls) (o : obj V) (h : list (op V)) : Prop :=
  forall h' X t, h = h' ++ Fit X :: t -> fit_shows w c (after w c o h') X <> Self.

(* A fit depends on the hyperparameters and on the data only, and once it has
   succeeded nothing that happened to the object before can be told any more:
   the object behaves as a new one with the same hyperparameters, fitted on the
   same data. *)
Definition forgets_the_past (c : cls) : Prop :=
  forall V (w : world V) p0 (h0 : list (op V)) p X,
    let o := after w c (new_obj p0) (h0 ++ [SetParams p]) in
    let n := new_obj p in
    fit_shows w c o X = fit_shows w c n X /\
    (fit_shows w c o X = Self ->
     forall h, documented c h -> seen w c (fit_leaves w c o X) h = seen w c (fit_leaves w c n X) h).

(* After a successful fit, calls of fit that raise (on whatever data, under
   whatever hyperparameters) change nothing to what the methods return later. *)
Definition failed_fits_harmless (c : cls) : Prop :=
  forall V (w : world V) p0 (h0 : list (op V)) X0 h1 h,
    let o1 := after w c (new_obj p0) h0 in
    fit_shows w c o1 X0 = Self ->
    let o2 := fit_leaves w c o1 X0 in
    no_success w c o2 h1 ->
    let o3 := after w c o2 h1 in
    no_get h ->
    seen w c o3 h = seen w c (Build_obj (o_par o3) (o_att o2)) h.

(* The same, for calls of fit that raise under the hyperparameters of the last
   successful fit. *)
Definition failed_fits_harmless_same_params (c : cls) : Prop :=
  forall V (w : world V) p0 (h0 : list (op V)) X0 h1 h,
    let o1 := after w c (new_obj p0) h0 in
    fit_shows w c o1 X0 = Self ->
    let o2 := fit_leaves w c o1 X0 in
    no_set_params h1 ->
    no_success w c o2 h1 ->
    no_get h ->
    seen w c (after w c o2 h1) h = seen w c o2 h.

(* As long as no fit has succeeded, every method raises NotFittedError. *)
Definition raises_not_fitted (c : cls) : Prop :=
  forall V (w : world V) p0 (h : list (op V)) m s X,
    no_success w c (new_obj p0) h ->
    lookup_meth (c_meths c) m = Some s ->
    snd (run_call w c (after w c (new_obj p0) h) m X) = Exc NotFittedError.

(* the exceptions of an object that lacks something: not fitted, or an attribute
   or a variable read before it was assigned *)
Definition lacks (x : exn) : Prop :=
  x = NotFittedError \/ x = AttributeError \/ x = UnboundLocalError.

(* Calls of fit never fail for want of an attribute, and once a fit has succeeded
   no method does, whatever happens later (further fits, failed or not, other
   hyperparameters): if one of these exceptions is seen, it comes from a library
   that was called. *)
Definition usable_once_fitted (c : cls) : Prop :=
  forall V (w : world V) p0 (h0 : list (op V)) X0,
    (forall n vs x, may w n vs = Err x -> ~ lacks x) ->
    let o1 := after w c (new_obj p0) h0 in
    (forall x, fit_shows w c o1 X0 = Exc x -> ~ lacks x) /\
    (fit_shows w c o1 X0 = Self ->
     let o2 := fit_leaves w c o1 X0 in
     forall h1 m s X x, lookup_meth (c_meths c) m = Some s ->
       snd (run_call w c (after w c o2 h1) m X) = Exc x -> ~ lacks x).
