(** What it means that a transformer treats the samples of a collection one by one. *)
From Verif Require Import Np.
Open Scope Z_scope.
Open Scope list_scope.

(** The results for the samples in their order, or the exception of the first sample that has one. *)
Fixpoint one_by_one {A B} (g : A -> res B) (Y : list A) : res (list B) :=
  match Y with
  | [] => Ok []
  | y :: Y => match g y with
              | Err e => Err e
              | Ok r => match one_by_one g Y with Err e => Err e | Ok R => Ok (r :: R) end
              end
  end.
(** There is a function of one sample, the same for every collection and every n_jobs, that gives
    every row of the output and never raises. *)
Definition sample_by_sample {A B} (valid : list A -> Prop) (transform : Z -> list A -> res (list B)) : Prop :=
  exists g : A -> B, forall n_jobs Y, 1 <= n_jobs -> valid Y -> transform n_jobs Y = Ok (map g Y).
(** The same when a sample can raise. *)
Definition sample_by_sample_or_raise {A B} (valid : list A -> Prop) (transform : Z -> list A -> res (list B)) : Prop :=
  exists g : A -> res B, forall n_jobs Y, 1 <= n_jobs -> valid Y -> transform n_jobs Y = one_by_one g Y.
