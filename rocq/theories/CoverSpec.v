(** Independent vocabulary for the covers of gtda/mapper/cover.py. *)
From Coq Require Import Sorted.
From Verif Require Import Np Fl.
Open Scope Z_scope.

(** x lies in the open interval (a, b), a and b possibly infinite. *)
Definition above (a : fl) (x : Qc) : Prop :=
  match a with NInf => True | Fin q => (q < x)%Qc | _ => False end.
Definition below (x : Qc) (b : fl) : Prop :=
  match b with PInf => True | Fin q => (x < q)%Qc | _ => False end.
Definition inside (I : fl * fl) (x : Qc) : Prop :=
  above (fst I) x /\ below x (snd I).

(** [lo] ([hi]) is the least (largest) element of a list. *)
Definition least (lo : Qc) (X : list Qc) : Prop :=
  In lo X /\ forall x, In x X -> (lo <= x)%Qc.
Definition largest (hi : Qc) (X : list Qc) : Prop :=
  In hi X /\ forall x, In x X -> (x <= hi)%Qc.

(** [a i, b i], i = 0 .. n-1: intervals of equal length spanning [lo, hi] such
    that consecutive ones overlap in the fraction [ov] of their length. *)
Definition evenly_spaced (lo hi : Qc) (n : Z) (ov : Qc) (a b : Z -> Qc) : Prop :=
  a 0 = lo /\ b (n - 1) = hi /\
  exists len,
    (forall i, 0 <= i < n -> (b i - a i = len)%Qc) /\
    (forall i, 0 <= i < n - 1 -> (b i - a (i + 1)%Z = ov * len)%Qc).

(** The uniform cover of the line: as above, the first interval being extended
    to -inf and the last one to +inf. *)
Definition uniform_cover (lo hi : Qc) (n : Z) (ov : Qc) (I : list (fl * fl)) : Prop :=
  exists a b, evenly_spaced lo hi n ov a b /\ zlen I = n /\
  forall i, 0 <= i < n ->
    Znth I i = Some (if i =? 0 then NInf else Fin (a i),
                     if i =? n - 1 then PInf else Fin (b i)).

(** [r] is the number of distinct values of X below x. *)
Definition is_rank (X : list Qc) (x : Qc) (r : Z) : Prop :=
  exists l, NoDup l /\ zlen l = r /\
  (forall y, In y l <-> In y X /\ (y < x)%Qc).

(** The balanced cover of the line defined by training values X with [m]
    distinct values: an evenly spaced cover of (-1/2, m - 1/2) is computed in
    the space of ranks; interval k is bounded by the training values whose ranks
    are the floor of its left end and the ceiling of its right end, or unbounded
    when this end lies outside the range [0, m-1] of the ranks (an interval whose
    right end is negative is bounded by the value of rank 1). *)
Definition has_rank (X : list Qc) (v : Qc) (r : Z) : Prop :=
  In v X /\ is_rank X v r.
Definition balanced_cover (X : list Qc) (n : Z) (ov : Qc) (I : list (fl * fl)) : Prop :=
  exists m D a b,
    NoDup D /\ (forall x, In x D <-> In x X) /\ zlen D = m /\
    evenly_spaced (- Q2Qc (1 # 2)) (qz m - Q2Qc (1 # 2))%Qc n ov a b /\
    zlen I = n /\
    forall i, 0 <= i < n ->
      exists l r, Znth I i = Some (l, r) /\
      ((exists v k, l = Fin v /\ has_rank X v k /\ qz k <= a i /\ a i < qz (k + 1))%Qc \/
       (l = NInf /\ a i < 0)%Qc) /\
      ((exists v k, r = Fin v /\ has_rank X v k /\ qz (k - 1) < b i /\ b i <= qz k)%Qc \/
       (r = PInf /\ qz (m - 1) < b i)%Qc \/
       (exists v, r = Fin v /\ has_rank X v 1 /\ b i < 0)%Qc).

(** A boolean column describes a set of samples. *)
Definition describes {A} (S : A -> Prop) (X : list A) (col : list bool) : Prop :=
  Forall2 (fun x b => b = true <-> S x) X col.

(** The columns kept of a list of columns: exactly those which are not empty
    and do not repeat an earlier one, in the original order. *)
Definition kept_columns (all kept : list (list bool)) : Prop :=
  exists sel : list Z,
    StronglySorted Z.lt sel /\
    Forall2 (fun i c => Znth all i = Some c) sel kept /\
    forall i, In i sel <->
      (exists c, Znth all i = Some c /\ In true c /\
                 forall j, 0 <= j < i -> Znth all j <> Some c).

(** The mask columns of a family of sets over the samples X. *)
Definition masks_of {A} (sets : list (A -> Prop)) (X : list A)
  (cols : list (list bool)) : Prop :=
  exists all, Forall2 (fun S c => describes S X c) sets all /\
              kept_columns all cols.

(** Sample p belongs to one of the columns. *)
Definition in_some_column (cols : list (list bool)) (p : Z) : Prop :=
  exists c, In c cols /\ Znth c p = Some true.

(** Boxes: products of intervals, the last coordinate varying fastest. *)
Definition in_box (B : list (fl * fl)) (x : list Qc) : Prop :=
  Forall2 inside B x.
Inductive boxes : list (list (fl * fl)) -> list (list (fl * fl)) -> Prop :=
| boxes_nil : boxes [] [[]]
| boxes_cons I covers B :
    boxes covers B ->
    boxes (I :: covers) (concat (map (fun i => map (cons i) B) I)).
