(** Specification for pipelines as objects (C83). *)
From Coq Require Import String.
From Verif Require Import Np MParModel PipeModel PipeSpec CacheModel.
Open Scope string_scope.
Local Open Scope list_scope.

(** What the user's program does, without the losses of stored results that happen by themselves. *)
Definition program {O X Y V} (h : list (@op O X Y V)) : list op :=
  filter (fun c => match c with OForget _ => false | _ => true end) h.
(** The estimators a list of steps refers to. *)
Definition addresses (steps : list (string * step nat)) : list nat :=
  flat_map (fun p => match snd p with SObj a => [a] | _ => [] end) steps.
(** A pipeline has a memory with a location. *)
Definition caching (memory : option Z) : bool := match memory with Some _ => true | None => false end.
(** Either there is a memory, or no estimator is used by two steps. *)
Definition unshared (p : pipeline) : Prop := p_memory p <> None \/ NoDup (addresses (p_steps p)).

Section Spec.
Context {O X Y V R : Type}.
Variable M : methods O X Y V R.
(** The fitting methods on steps which are the states of their estimators (C53): the steps
    afterwards and the answer. *)
Definition on_states (f : fitting) (caching : bool) (steps : list (string * step O)) (x : X) (y : option Y)
  (ps : list (string * V)) : res (list (string * step O) * @answer X Y R) :=
  match f with
  | FFit => do s <- pipe_fit M caching steps x y ps; Ok (s, Self)
  | FFitTransform => do r <- pipe_fit_transform M caching steps x y ps; Ok (fst r, Data (snd r))
  | FFitTransformResample => do r <- pipe_fit_transform_resample M caching steps x y ps; Ok (fst r, Both (snd r))
  | FFitPredict => do r <- pipe_fit_predict M caching steps x y ps; Ok (fst r, Value (snd r))
  end.
(** Fitting does not depend on what an estimator learned before: a clone fits in the same way. *)
Definition refits : Prop := forall o,
  (forall a, has M (clone M o) a = has M o a) /\
  forall x y p, fit M (clone M o) x y p = fit M o x y p /\
    fit_transform M (clone M o) x y p = fit_transform M o x y p /\
    fit_transform_resample M (clone M o) x y p = fit_transform_resample M o x y p.
End Spec.
