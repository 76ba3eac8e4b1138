(** Specifications for persistence-diagram plumbing (C11-C13, C17-C19, C52),
    independent of the model. *)
From Verif Require Import Np Fl DiagTypes.
Open Scope Z_scope.

(** The rows of dimension [q], in order. *)
Definition rows_of (q : fl) (x : diagram) : diagram :=
  filter (fun p => feq (pq p) q) x.

(** All diagrams of [X] have the same number of rows in dimension [q]. *)
Definition balanced (q : fl) (X : list diagram) : Prop :=
  exists n, forall x, In x X -> zlen (rows_of q x) = n.

(** [k] copies of the diagonal row (m, m, q). *)
Definition diag_rows (k : Z) (m q : fl) : diagram := repeat (Pt m m q) (Z.to_nat k).

(** [kept] padded with diagonal rows up to length [n]. *)
Definition padded (n : Z) (m q : fl) (kept : diagram) : diagram :=
  kept ++ diag_rows (n - zlen kept) m q.

(** [n] is the largest length occurring in [L], but at least 1. *)
Definition is_slot_count {A} (n : Z) (L : list (list A)) : Prop :=
  1 <= n /\ (forall l, In l L -> zlen l <= n) /\
  (n = 1 \/ exists l, In l L /\ zlen l = n).

(** [m] is the smallest birth occurring in the diagrams [L], 0 if there is none. *)
Definition is_padding_value (m : fl) (L : list diagram) : Prop :=
  (m = f0 /\ forall x, In x L -> x = []) \/
  (exists x p, In x L /\ In p x /\ pb p = m) /\
  (forall x p, In x L -> In p x -> fle m (pb p) = true).

(** The backend's points in one dimension, as listed by it. *)
Definition backend_points (d : backend) (dim : Z) : list (fl * fl) :=
  match d with
  | ByDimension subs => match Znth subs dim with Some s => s | None => [] end
  | Tagged pers => map snd (filter (fun e => fst e =? dim) pers)
  end.

(** The infinite H0 class removed for reduced homology: ripser and flagser list
    it last, GUDHI first. *)
Definition without_infinite_class (d : backend) (l : list (fl * fl)) :=
  match d with ByDimension _ => removelast l | Tagged _ => tl l end.

(** Replacement of infinities: NaN by 0, +inf by [inf_value]. *)
Definition finite_value (inf_value x : fl) : fl :=
  match x with
  | NaN => f0 | PInf => inf_value
  | NInf => Fin (Q2Qc (inject_Z (- (2 ^ 1024 - 2 ^ 971))))
  | Fin q => Fin q
  end.

(** The non-trivial points of a sample in dimension [dim] as rows. *)
Definition nontrivial_rows (reduced : bool) (inf_value : fl) (d : backend) (dim : Z)
  : diagram :=
  let l := backend_points d dim in
  let l := if reduced && (dim =? 0) then without_infinite_class d l else l in
  filter (fun p => flt (pb p) (pd p))
    (map (fun bd => Pt (finite_value inf_value (fst bd))
                       (finite_value inf_value (snd bd)) (fz dim)) l).

(** The backend output answers a request for dimension [dim]. *)
Definition has_dimension (d : backend) (dim : Z) : Prop :=
  0 <= dim /\
  match d with ByDimension subs => dim < zlen subs | Tagged _ => True end.

(** Points of dimension [q] with lifetime strictly above [cutoff]. *)
Definition long_lived (cutoff q : fl) (x : diagram) : diagram :=
  filter (fun p => flt cutoff (fsub (pd p) (pb p))) (rows_of q x).

(** A dimension label accepted by check_diagrams: a non-negative integer. *)
Definition is_dim_label (q : fl) : Prop := exists k, 0 <= k /\ q = fz k.

(** C-order flattening of a collection to a float array. *)
Definition flatten (D : list diagram) : list fl :=
  flat_map (fun p => [pb p; pd p; pq p]) (concat D).

(** A collection that check_diagrams must accept: the dimensions of the first
    diagram are all infinite or all non-negative integers, no point of any
    diagram has death < birth, and no entry is NaN. *)
Definition valid_collection (D : list diagram) : Prop :=
  ((forall p, In p (hd [] D) -> pq p = PInf) \/
   (forall p, In p (hd [] D) -> is_dim_label (pq p))) /\
  (forall x p, In x D -> In p x -> flt (pd p) (pb p) = false) /\
  (forall x p, In x D -> In p x -> pb p <> NaN /\ pd p <> NaN /\ pq p <> NaN).

(** Strictly increasing list of non-NaN floats. *)
Definition increasing (l : list fl) : Prop :=
  forall i j a b, 0 <= i < j -> Znth l i = Some a -> Znth l j = Some b -> flt a b = true.

(** All points have finite coordinates with birth <= death. *)
Definition finite_points (X : list diagram) : Prop :=
  forall x p, In x X -> In p x ->
    exists b d, pb p = Fin b /\ pd p = Fin d /\ (b <= d)%Qc.

(** Only dimensions occurring in the first diagram occur, none is NaN. *)
Definition dimensions_of_first (X : list diagram) : Prop :=
  forall x p, In x X -> In p x ->
    isnan (pq p) = false /\ In (pq p) (map pq (hd [] X)).
