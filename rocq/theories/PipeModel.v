(** Model of gtda/pipeline.py (Pipeline, make_pipeline) and of TransformerResamplerMixin in
    gtda/base.py, with the parts of scikit-learn's Pipeline they inherit. *)
From Coq Require Import String.
From Verif Require Import Np MParModel.
Open Scope Z_scope.
Open Scope string_scope.

(** The methods an estimator may have. *)
Inductive attr := Fit | FitTransform | Transform | FitTransformResample | TransformResample
| Resample | InverseTransform | FitPredict | Predict | Score.

(** Estimator objects of any kind (external): [has] is hasattr.  Methods that change the object
    return the new object.  fit returns the object itself.  V are keyword values, R the results of
    predict and score.  inverse_transform is called with one or two arguments. *)
Record methods (O X Y V R : Type) := Methods {
  has : O -> attr -> bool;
  fit : O -> X -> option Y -> list (string * V) -> res O;
  fit_transform : O -> X -> option Y -> list (string * V) -> res (O * X);
  transform : O -> X -> res X;
  fit_transform_resample : O -> X -> option Y -> list (string * V) -> res (O * (X * option Y));
  transform_resample : O -> X -> option Y -> res (X * option Y);
  resample : O -> option Y -> res (option Y);
  inverse_transform1 : O -> X -> res X;
  inverse_transform2 : O -> X -> option Y -> res X;
  fit_predict : O -> X -> option Y -> list (string * V) -> res (O * R);
  predict : O -> X -> res R;
  score : O -> X -> option Y -> option V -> res R;
  clone : O -> O }.
Arguments has {_ _ _ _ _}. Arguments fit {_ _ _ _ _}. Arguments fit_transform {_ _ _ _ _}.
Arguments transform {_ _ _ _ _}. Arguments fit_transform_resample {_ _ _ _ _}.
Arguments transform_resample {_ _ _ _ _}. Arguments resample {_ _ _ _ _}.
Arguments inverse_transform1 {_ _ _ _ _}. Arguments inverse_transform2 {_ _ _ _ _}. Arguments fit_predict {_ _ _ _ _}.
Arguments predict {_ _ _ _ _}. Arguments score {_ _ _ _ _}. Arguments clone {_ _ _ _ _}.

(** A step: None, 'passthrough' or an estimator.  The estimators of a pipeline are distinct
    objects. *)
Inductive step (O : Type) := SNone | SPass | SObj (o : O).
Arguments SNone {_}. Arguments SPass {_}. Arguments SObj {_}.

Section Pipeline.
Context {O X Y V R : Type}.
Variable M : methods O X Y V R.
Notation has := (has M). Notation fit := (fit M). Notation fit_transform := (fit_transform M).
Notation transform := (transform M). Notation fit_transform_resample := (fit_transform_resample M).
Notation transform_resample := (transform_resample M). Notation resample := (resample M).
Notation inverse_transform2 := (inverse_transform2 M). Notation fit_predict := (fit_predict M).
Notation predict := (predict M). Notation score := (score M). Notation clone := (clone M).
Notation steps_list := (list (string * step O)).
Notation params := (list (string * V)).

(** obj.method: an AttributeError if the object has no such method *)
Definition get {A} (o : O) (a : attr) (r : res A) : res A := if has o a then r else Err AttributeError.

(** scikit-learn (external): Pipeline._validate_steps and _validate_names *)
Fixpoint names_unique (l : list string) : bool :=
  match l with [] => true | n :: t => negb (existsb (String.eqb n) t) && names_unique t end.
Definition has_dunder (s : string) : bool := match snd (partition s) with Some _ => true | None => false end.
Definition validate_steps (steps : steps_list) : res unit :=
  match rev steps with
  | [] => Err ValueError
  | (_, last) :: before =>
      let names := map fst steps in
      if negb (names_unique names) then Err ValueError else
      if existsb (fun n => existsb (String.eqb n) ["steps"; "memory"; "verbose"]) names then Err ValueError else
      if existsb has_dunder names then Err ValueError else
      if existsb (fun p => match snd p with
                           | SObj o => negb (has o Fit || has o FitTransform) || negb (has o Transform)
                           | _ => false
                           end) (rev before) then Err TypeError else
      match last with
      | SObj o => if negb (has o Fit) then Err TypeError else Ok tt
      | _ => Ok tt
      end
  end.

(** scikit-learn (external): Pipeline._final_estimator; None stands for 'passthrough' *)
Definition final_estimator (steps : steps_list) : res (option O) :=
  match rev steps with
  | [] => Err IndexError
  | (_, SObj o) :: _ => Ok (Some o)
  | (_, _) :: _ => Ok None
  end.
(** scikit-learn (external): the estimators Pipeline._iter(with_final) goes through *)
Definition objects (steps : steps_list) : list O :=
  flat_map (fun p => match snd p with SObj o => [o] | _ => [] end) steps.
Definition iter (with_final : bool) (steps : steps_list) : list O :=
  objects (if with_final then steps else removelast steps).

(** lines 108-112: fit_params_steps *)
Definition empty_params (steps : steps_list) : list (string * params) :=
  flat_map (fun p => match snd p with SNone => [] | _ => [(fst p, [])] end) steps.
Fixpoint split_params (fit_params : params) (d : list (string * params)) : res (list (string * params)) :=
  match fit_params with
  | [] => Ok d
  | (pname, pval) :: t =>
      match partition pname with
      | (_, None) => Err ValueError
      | (st, Some param) =>
          match lookup st d with
          | None => Err KeyError
          | Some p => split_params t (set_field st (p ++ [(param, pval)])%list d)
          end
      end
  end.
Definition params_of (name : string) (d : list (string * params)) : res params :=
  match lookup name d with Some p => Ok p | None => Err KeyError end.

(** lines 445-453, with weight None *)
Definition fit_transform_one (o : O) (x : X) (y : option Y) (p : params) : res (X * O) :=
  if has o FitTransform then do r <- fit_transform o x y p; Ok (snd r, fst r)
  else do o' <- get o Fit (fit o x y p); do x' <- get o' Transform (transform o' x); Ok (x', o').
(** lines 456-467, with weight None *)
Definition fit_transform_resample_one (o : O) (x : X) (y : option Y) (p : params) : res (X * option Y * O) :=
  if has o FitTransformResample then do r <- fit_transform_resample o x y p; Ok (snd r, fst r)
  else do o' <- get o Fit (fit o x y p);
       do r <- get o' TransformResample (transform_resample o' x y); Ok (r, o').

(** lines 113-140: the loop over the steps but the last, giving the steps so far, the data and the
    target.  [caching]: a memory with a location is given.  Loading a result from the cache is
    taken to be the same as computing it. *)
Fixpoint fit_loop (caching : bool) (d : list (string * params)) (steps : steps_list) (x : X) (y : option Y)
  : res (steps_list * (X * option Y)) :=
  match steps with
  | [] => Ok ([], (x, y))
  | (name, SObj transformer) :: t =>
      let cloned := if caching then clone transformer else transformer in
      do r <- (if has cloned Resample || has cloned FitTransformResample then
                 match y with
                 | None => do p <- params_of name d; do r <- fit_transform_one cloned x y p;
                           Ok (fst r, y, snd r)
                 | Some _ => do p <- params_of name d; fit_transform_resample_one cloned x y p
                 end
               else do p <- params_of name d; do r <- fit_transform_one cloned x y p; Ok (fst r, y, snd r));
      let '(x', y', fitted) := r in
      do rest <- fit_loop caching d t x' y';
      Ok ((name, SObj fitted) :: fst rest, snd rest)
  | s :: t => do rest <- fit_loop caching d t x y; Ok (s :: fst rest, snd rest)
  end.

(** lines 98-143 _fit: also the parameters for the last step *)
Definition fit_steps (caching : bool) (steps : steps_list) (x : X) (y : option Y) (fit_params : params)
  : res (steps_list * (X * option Y) * params) :=
  do _ <- validate_steps steps;
  do d <- split_params fit_params (empty_params steps);
  do r <- fit_loop caching d (removelast steps) x y;
  match rev steps with
  | [] => Err IndexError
  | (name, SObj o) :: _ => do p <- params_of name d; Ok (fst r ++ [(name, SObj o)], snd r, p)%list
  | s :: _ => Ok (fst r ++ [s], snd r, [])%list
  end.
(** the pipeline after its last step has become [o] *)
Definition with_last (steps : steps_list) (o : O) : steps_list :=
  match rev steps with (name, _) :: _ => (removelast steps ++ [(name, SObj o)])%list | [] => [] end.

(** lines 145-176 *)
Definition pipe_fit (caching : bool) (steps : steps_list) (x : X) (y : option Y) (fit_params : params)
  : res steps_list :=
  do r <- fit_steps caching steps x y fit_params;
  let '(steps, (xt, yr), p) := r in
  do last <- final_estimator steps;
  match last with
  | None => Ok steps
  | Some o => do o' <- get o Fit (fit o xt yr p); Ok (with_last steps o')
  end.
(** lines 178-213 *)
Definition pipe_fit_transform (caching : bool) (steps : steps_list) (x : X) (y : option Y) (fit_params : params)
  : res (steps_list * X) :=
  do last <- final_estimator steps;
  do r <- fit_steps caching steps x y fit_params;
  let '(steps, (xt, yr), p) := r in
  match last with
  | None => Ok (steps, xt)
  | Some o =>
      if has o FitTransform then do r <- fit_transform o xt yr p; Ok (with_last steps (fst r), snd r)
      else do o' <- get o Fit (fit o xt yr p); do x' <- get o' Transform (transform o' xt);
           Ok (with_last steps o', x')
  end.
(** lines 215-252; None when the function returns None *)
Definition pipe_fit_transform_resample (caching : bool) (steps : steps_list) (x : X) (y : option Y) (fit_params : params)
  : res (steps_list * option (X * option Y)) :=
  do last <- final_estimator steps;
  do r <- fit_steps caching steps x y fit_params;
  let '(steps, (xt, yr), p) := r in
  match last with
  | None => Ok (steps, Some (xt, yr))
  | Some o =>
      if has o FitTransformResample then
        do r <- fit_transform_resample o xt yr p; Ok (with_last steps (fst r), Some (snd r))
      else if has o FitTransform then
        do r <- fit_transform o xt yr p; Ok (with_last steps (fst r), Some (snd r, yr))
      else Ok (steps, None)
  end.
(** lines 254-282; the decorator checks that the final estimator has the method *)
Definition pipe_fit_predict (caching : bool) (steps : steps_list) (x : X) (y : option Y) (fit_params : params)
  : res (steps_list * R) :=
  do last <- final_estimator steps;
  match last with
  | None => Err AttributeError
  | Some o => get o FitPredict (
      do r <- fit_steps caching steps x y fit_params;
      let '(steps, (xt, yr), p) := r in
      do r <- fit_predict o xt yr p; Ok (with_last steps (fst r), snd r))
  end.
(** lines 284-311: the method takes X and y=None *)
Definition pipe_resample (steps : steps_list) (x : option Y) (y : option Y) : res (option Y) :=
  do last <- final_estimator steps;
  do _ <- match last with None => Ok tt | Some o => get o Resample (Ok tt) end;
  (fix go l yr := match l with
                  | [] => Ok yr
                  | o :: t => do yr <- get o Resample (resample o yr); go t yr
                  end) (iter true steps) y.
(** the loops of lines 343-347 and 433-437 *)
Fixpoint transform_resample_loop (l : list O) (x : X) (y : option Y) : res (X * option Y) :=
  match l with
  | [] => Ok (x, y)
  | o :: t =>
      if has o TransformResample then do r <- transform_resample o x y; transform_resample_loop t (fst r) (snd r)
      else do x <- get o Transform (transform o x); transform_resample_loop t x y
  end.
(** lines 313-348 *)
Definition pipe_transform_resample (steps : steps_list) (x : X) (y : option Y) : res (X * option Y) :=
  do last <- final_estimator steps;
  do _ <- match last with
          | None => Ok tt
          | Some o => if has o TransformResample then Ok tt else get o Transform (Ok tt)
          end;
  transform_resample_loop (iter true steps) x y.
(** the loop of lines 375-376 *)
Fixpoint transform_loop (l : list O) (x : X) : res X :=
  match l with [] => Ok x | o :: t => do x <- get o Transform (transform o x); transform_loop t x end.
(** lines 350-377 *)
Definition pipe_transform (steps : steps_list) (x : X) : res X :=
  do last <- final_estimator steps;
  do _ <- match last with None => Ok tt | Some o => get o Transform (Ok tt) end;
  transform_loop (iter true steps) x.
(** lines 379-408 *)
Fixpoint inverse_loop (l : list O) (x : X) (y : option Y) : res X :=
  match l with [] => Ok x | o :: t => do x <- inverse_transform2 o x y; inverse_loop t x y end.
Definition pipe_inverse_transform (steps : steps_list) (x : X) (y : option Y) : res X :=
  if existsb (fun o => negb (has o InverseTransform)) (iter true steps) then Err AttributeError else
  inverse_loop (rev (iter true steps)) x y.
(** scikit-learn (external): Pipeline.predict, without predict_params *)
Definition pipe_predict (steps : steps_list) (x : X) : res R :=
  do last <- final_estimator steps;
  match last with
  | None => Err AttributeError
  | Some o => get o Predict (do x <- transform_loop (iter false steps) x; predict o x)
  end.
(** lines 410-442 *)
Definition pipe_score (steps : steps_list) (x : X) (y : option Y) (sample_weight : option V) : res R :=
  do last <- final_estimator steps;
  match last with
  | None => Err AttributeError
  | Some o => get o Score (do r <- transform_resample_loop (iter false steps) x y;
                           score o (fst r) (snd r) sample_weight)
  end.
End Pipeline.

(** base.py lines 6-88: a class using TransformerResamplerMixin.  It has its own fit, transform
    and resample; the latter takes y and X. *)
Section Mixin.
Context {O X Y V : Type}.
Variable fit_ : O -> X -> option Y -> list (string * V) -> res O.
Variable transform_ : O -> X -> option Y -> res X.
Variable resample_ : O -> Y -> option X -> res Y.
(** lines 11-39 *)
Definition mixin_fit_transform (o : O) (x : X) (y : option Y) (p : list (string * V)) : res (O * X) :=
  match y with
  | None => do o' <- fit_ o x None p; do x' <- transform_ o' x None; Ok (o', x')
  | Some y => do o' <- fit_ o x (Some y) p; do x' <- transform_ o' x (Some y); Ok (o', x')
  end.
(** lines 41-64 *)
Definition mixin_transform_resample (o : O) (x : X) (y : Y) : res (X * Y) :=
  do xt <- transform_ o x None; do yr <- resample_ o y (Some x); Ok (xt, yr).
(** lines 66-88 *)
Definition mixin_fit_transform_resample (o : O) (x : X) (y : Y) (p : list (string * V)) : res (O * (X * Y)) :=
  do o' <- fit_ o x (Some y) p; do r <- mixin_transform_resample o' x y; Ok (o', r).
End Mixin.

(** lines 470-517: the keyword arguments of make_pipeline; the memory to use *)
Definition make_pipeline_memory {V} (kwargs : list (string * V)) : res (option V) :=
  let memory := lookup "memory" kwargs in
  match filter (fun p => negb (String.eqb "memory" (fst p))) kwargs with
  | [] => Ok memory
  | _ => Err TypeError
  end.
