(** gtda/diagrams/preprocessing.py, Scaler for every amplitude metric and
    function, over the reals.  The amplitude arrays are those of
    MetricModel.v; diagrams passed to transform have finite entries. *)
From Coq Require Import Reals.
From Verif Require Import Np Fl DiagTypes VecModel RNp MetricModel ScalerSpec.
Open Scope Z_scope.

(** [np.max] of a 2D array: ValueError when it has no entry, NaN when an entry is
    NaN. *)
Definition np_max_table (A : list (list (option R))) : res (option R) :=
  match concat A with
  | [] => Err ValueError
  | o :: t => Ok (fold_left (fun acc o => match acc, o with
                                          | Some u, Some v => Some (Rmax u v)
                                          | _, _ => None
                                          end) t o)
  end.

(** Scaler.fit, lines 231-267: the same sampling and the same call of
    [_parallel_amplitude] as Amplitude.fit(X) followed by transform(X);
    [function] is called on the array of amplitudes, and calling None is a
    TypeError.  The scale is None when it is NaN. *)
Definition scaler_fit (E : externals) (m : metric) (n_bins n_jobs : Z)
  (function : option (list (list (option R)) -> res (option R))) (X : list diagram)
  : res (option R) :=
  do amplitude_array <- amplitude E m n_bins n_jobs X X;
  match function with
  | None => Err TypeError
  | Some f => f amplitude_array
  end.

(** Division and multiplication by a float; None is NaN or infinite. *)
Definition rdiv (x : R) (s : option R) : option R :=
  match s with
  | Some s => if Req_EM_T s 0 then None else Some (x / s)%R
  | None => None
  end.
Definition rmul (x : R) (s : option R) : option R :=
  match s with Some s => Some (x * s)%R | None => None end.
(** [Xs[:, :, :2] /= scale_] and [Xs[:, :, :2] *= scale_], lines 292-296 and
    313-317. *)
Definition scaled (op : R -> option R -> option R) (s : option R) (X : list rdiagram)
  : list (list (option R * option R * fl)) :=
  map (map (fun p => (op (fst (fst p)) s, op (snd (fst p)) s, snd p))) X.
Definition scaler_transform_r := scaled rdiv.
Definition scaler_inverse_transform_r := scaled rmul.
