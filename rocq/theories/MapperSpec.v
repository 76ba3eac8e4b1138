(** Independent vocabulary for clustering and nerve (gtda/mapper). *)
From Coq Require Import Sorted.
From Verif Require Import Np.
Open Scope Z_scope.

(** [rel] lists, increasingly, the samples of the portion given by mask [c]. *)
Definition members (c : list bool) (rel : list Z) : Prop :=
  StronglySorted Z.lt rel /\ forall p, In p rel <-> Znth c p = Some true.

(** [Y] is the list of the elements of [X] at positions [rel]. *)
Definition picks {A} (X : list A) (rel : list Z) (Y : list A) : Prop :=
  Forall2 (fun p x => Znth X p = Some x) rel Y.

(** The part of the data belonging to [rel]: the rows, or for a distance matrix
    the rows and columns. *)
Definition portion {A} (precomputed : bool) (X : list (list A)) (rel : list Z)
  (Y : list (list A)) : Prop :=
  if precomputed then exists rows, picks X rel rows /\ Forall2 (fun r y => picks r rel y) rows Y
  else picks X rel Y.
Definition weight_portion {W} (w : option (list W)) (rel : list Z) (w' : option (list W)) : Prop :=
  match w, w' with
  | None, None => True
  | Some w, Some w' => picks w rel w'
  | _, _ => False
  end.

(** The clusterer, run on the portion given by mask [c] alone, gives the samples
    [rel] of the portion the labels [ls]. *)
Definition clusters_portion {A W} (precomputed : bool)
  (clusterer : list (list A) -> option (list W) -> res (list Z))
  (w : option (list W)) (X : list (list A)) (c : list bool) (rel ls : list Z) : Prop :=
  exists Y w', members c rel /\ portion precomputed X rel Y /\ weight_portion w rel w' /\
    clusterer Y w' = Ok ls /\ zlen ls = zlen rel.

(** Every sample has at most one partial cluster per pullback set. *)
Definition refined (X : list (list (Z * Z))) : Prop :=
  forall sample, In sample X -> NoDup (map fst sample).

(** Sample [s] has label [k]. *)
Definition has_label (X : list (list (Z * Z))) (s : Z) (k : Z * Z) : Prop :=
  exists sample, Znth X s = Some sample /\ In k sample.

(** The elements of a list without repetitions, in the order of their first
    occurrence. *)
Definition id_eq_dec (a b : Z * Z) : {a = b} + {a <> b}.
Proof. decide equality; apply Z.eq_dec. Defined.
Definition first_occurrences (l : list (Z * Z)) : list (Z * Z) :=
  rev (nodup id_eq_dec (rev l)).

(** [l] lists the common elements of [a] and [b] increasingly. *)
Definition common (a b l : list Z) : Prop :=
  StronglySorted Z.lt l /\ forall x, In x l <-> In x a /\ In x b.

(** The nodes of a refined Mapper cover: a node for each label, with the samples
    carrying this label. *)
Definition nodes_of (X : list (list (Z * Z))) (nodes : list ((Z * Z) * list Z)) : Prop :=
  map fst nodes = first_occurrences (concat X) /\
  forall k l, In (k, l) nodes ->
    l <> [] /\ StronglySorted Z.lt l /\ forall s, In s l <-> has_label X s k.

(** Lexicographic order of pairs of nodes. *)
Definition pair_lt (p q : Z * Z) : Prop :=
  fst p < fst q \/ (fst p = fst q /\ snd p < snd q).
