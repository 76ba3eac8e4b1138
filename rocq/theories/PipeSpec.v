(** Specification for pipelines (C53). *)
From Coq Require Import String.
From Verif Require Import Np PipeModel.
Open Scope Z_scope.
Open Scope string_scope.

Section Spec.
Context {O X Y V R : Type}.
Variable M : methods O X Y V R.

(** The estimators of a pipeline, in order: steps None and 'passthrough' do nothing. *)
Inductive estimators : list (string * step O) -> list O -> Prop :=
| est_nil : estimators [] []
| est_none n t l : estimators t l -> estimators ((n, SNone) :: t) l
| est_pass n t l : estimators t l -> estimators ((n, SPass) :: t) l
| est_obj n o t l : estimators t l -> estimators ((n, SObj o) :: t) (o :: l).

(** What a fitted estimator does to data and target: both at once if it can resample, else the
    data only. *)
Definition moves (o : O) (x : X) (y : option Y) (x' : X) (y' : option Y) : Prop :=
  if has M o TransformResample then transform_resample M o x y = Ok (x', y')
  else has M o Transform = true /\ transform M o x = Ok x' /\ y' = y.
(** One estimator after the other. *)
Inductive passes : list O -> X -> option Y -> X -> option Y -> Prop :=
| pass_nil x y : passes [] x y x y
| pass_cons o l x y x1 y1 x' y' : moves o x y x1 y1 -> passes l x1 y1 x' y' -> passes (o :: l) x y x' y'.
(** The same for the data alone. *)
Inductive transforms : list O -> X -> X -> Prop :=
| tr_nil x : transforms [] x x
| tr_cons o l x x1 x' : has M o Transform = true -> transform M o x = Ok x1 -> transforms l x1 x' -> transforms (o :: l) x x'.

(** The usual laws of estimators: fit_transform is fit then transform, fit_transform_resample is
    fit then transform_resample, the latter transforms the data as transform does and gives a
    target when it is given one, fitting and cloning do not change which methods exist, and
    estimators with resample or fit_transform_resample are those with transform_resample. *)
Record lawful : Prop := {
  law_fit_has o x y p o' a : fit M o x y p = Ok o' -> has M o' a = has M o a;
  law_clone_has o a : has M (clone M o) a = has M o a;
  law_has_ft o : has M o FitTransform = true -> has M o Fit = true /\ has M o Transform = true;
  law_has_ftr o : has M o FitTransformResample = true -> has M o Fit = true;
  law_kind o : has M o TransformResample = (has M o Resample || has M o FitTransformResample)%bool;
  law_ft o x y p : has M o FitTransform = true ->
    fit_transform M o x y p = (do o' <- fit M o x y p; do x' <- transform M o' x; Ok (o', x'));
  law_ftr o x y p : has M o FitTransformResample = true ->
    fit_transform_resample M o x y p = (do o' <- fit M o x y p; do r <- transform_resample M o' x y; Ok (o', r));
  law_tr o x y x' y' : has M o TransformResample = true ->
    transform_resample M o x (Some y) = Ok (x', y') -> transform M o x = Ok x' /\ y' <> None }.

(** During fitting the target is only resampled if there is one. *)
Definition fit_moves (o : O) (x : X) (y : option Y) (x' : X) (y' : option Y) : Prop :=
  match y with
  | None => transform M o x = Ok x' /\ y' = None
  | Some _ => moves o x y x' y'
  end.

(** The keyword arguments meant for the step [n]: those whose name up to the first '__' is [n]. *)
Definition before_dunder (s a b : string) : Prop :=
  s = a ++ "__" ++ b /\ forall a' b', s = a' ++ "__" ++ b' -> (String.length a <= String.length a')%nat.
Inductive addressed (n : string) : list (string * V) -> list (string * V) -> Prop :=
| addr_nil : addressed n [] []
| addr_yes k b v t l : before_dunder k n b -> addressed n t l -> addressed n ((k, v) :: t) ((b, v) :: l)
| addr_no k v t l : (forall b, ~ before_dunder k n b) -> addressed n t l -> addressed n ((k, v) :: t) l.

(** Fitting the steps one after the other: each on the data and the target as moved by the fitted
    steps before it. *)
Inductive learns (caching : bool) (ps : list (string * V))
  : list (string * step O) -> X -> option Y -> list (string * step O) -> X -> option Y -> Prop :=
| learn_nil x y : learns caching ps [] x y [] x y
| learn_skip n s t x y t' x' y' : (forall o, s <> SObj o) ->
    learns caching ps t x y t' x' y' -> learns caching ps ((n, s) :: t) x y ((n, s) :: t') x' y'
| learn_fit n o p o' t x y x1 y1 t' x' y' :
    addressed n ps p ->
    fit M (if caching then clone M o else o) x y p = Ok o' -> fit_moves o' x y x1 y1 ->
    learns caching ps t x1 y1 t' x' y' -> learns caching ps ((n, SObj o) :: t) x y ((n, SObj o') :: t') x' y'.

(** Well-formed pipelines. *)
Definition well_formed (steps : list (string * step O)) : Prop :=
  NoDup (map fst steps) /\
  (forall n s, In (n, s) steps -> n <> "steps" /\ n <> "memory" /\ n <> "verbose" /\ forall a b, n <> a ++ "__" ++ b) /\
  (exists before n s, steps = (before ++ [(n, s)])%list /\
    (forall k o, In (k, SObj o) before -> (has M o Fit = true \/ has M o FitTransform = true) /\ has M o Transform = true) /\
    forall o, s = SObj o -> has M o Fit = true).
(** Keyword arguments each addressed to a step which is not None. *)
Definition params_ok (steps : list (string * step O)) (ps : list (string * V)) : Prop :=
  forall k v, In (k, v) ps -> exists n s b, before_dunder k n b /\ In (n, s) steps /\ s <> SNone.
End Spec.
