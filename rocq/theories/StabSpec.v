(** Specification for the stability of landscapes (C78); matchings and their
    costs are in MetricSpec. *)
From Coq Require Import Reals.
From Verif Require Import Np Fl DiagTypes DiagSpec VecSpec RNp MetricModel MetricSpec.
Open Scope Z_scope.

(** The factor by which landscape distances exceed sup-norm distances: the
    exponent-p mean over the grid, [(n_layers * n_bins * step) ^ (1 / p)]. *)
Definition landscape_scale (p : expo) (L n : Z) (g : grid) (f : R) : Prop :=
  match p with
  | Pinf => f = 1%R
  | Pfin a => exists step, snd (fst g) = Fin step /\ f = spow (IZR (L * n) * qr step) (1 / a)
  end.
