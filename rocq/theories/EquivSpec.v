(** Specification for changes of units and origin (C79): filtration values are
    replaced by [a * v + c]. *)
From Coq Require Import Reals.
From Verif Require Import Np Fl DiagTypes DiagSpec VecSpec RNp MetricModel MetricSpec.
Open Scope Z_scope.

Definition move (a c v : Qc) : Qc := (a * v + c)%Qc.
Definition fmove (a c : Qc) (v : fl) : fl := match v with Fin q => Fin (move a c q) | _ => v end.
(** The diagram in the new units. *)
Definition affine (a c : Qc) (x : diagram) : diagram :=
  map (fun p => Pt (fmove a c (pb p)) (fmove a c (pd p)) (pq p)) x.

(** The metric with its parameters in the new units: the bandwidth is a length,
    and the weight function is given lengths in the new units. *)
Definition in_units (a : Qc) (m : metric) : metric :=
  match m with
  | Heat p sigma => Heat p (a * sigma)%Qc
  | PersImage p sigma wf => PersImage p (a * sigma)%Qc (fun l => wf (map (fun v => v / a)%Qc l))
  | _ => m
  end.
(** The p-th root of [v]; 1 for p = infinity. *)
Definition root (v : R) (p : expo) : R :=
  match p with Pfin p => Rpower v (1 / p) | Pinf => 1%R end.
(** What amplitudes and distances are multiplied by. *)
Definition value_factor (a : R) (m : metric) : R :=
  match m with
  | Bottleneck | Wasserstein _ => a
  | Betti p => root a p
  | Landscape p _ | Silhouette p _ => a * root a p
  | Heat p _ | PersImage p _ _ => root (a * a) p / (a * a)
  end%R.
