(** Specification of cutting a dendrogram (C76), independent of the model. *)
From Coq Require Import Sorting.Permutation.
From Verif Require Import Np Fl.
Open Scope Z_scope.

(** The contract of Python's heapq: on heaps (lists starting with their least element, with some
    further structure) [push] inserts an element, and [pushpop] inserts an element
    and removes the least one, here spelled out for a new element that is not less than the
    least. *)
Definition heapq (push pushpop : list Z -> Z -> list Z) : Prop :=
  exists heap : list Z -> Prop,
    (forall x, heap [x]) /\
    (forall x h y, heap (x :: h) -> In y h -> x <= y) /\
    (forall h x, heap h -> heap (push h x) /\ Permutation (push h x) (x :: h)) /\
    (forall y h x, heap (y :: h) -> y <= x -> heap (pushpop (y :: h) x) /\ Permutation (pushpop (y :: h) x) (x :: h)).

(** [children] describes a binary tree of merges: the i-th merge makes node n + i out of two
    earlier nodes, and no node is merged twice. *)
Definition merge_tree (n : Z) (children : list (Z * Z)) : Prop :=
  zlen children = n - 1 /\
  (forall i a b, Znth children i = Some (a, b) -> 0 <= a < n + i /\ 0 <= b < n + i) /\
  NoDup (flat_map (fun c => [fst c; snd c]) children).

(** Sample [x] belongs to node [v]. *)
Inductive below (n : Z) (children : list (Z * Z)) : Z -> Z -> Prop :=
| below_sample x : 0 <= x < n -> below n children x x
| below_left i a b x : Znth children i = Some (a, b) -> below n children a x -> below n children (n + i) x
| below_right i a b x : Znth children i = Some (a, b) -> below n children b x -> below n children (n + i) x.

(** After the first [m] merges [x] and [y] belong to the same node. *)
Definition joined (n : Z) (children : list (Z * Z)) (m x y : Z) : Prop :=
  exists v, v < n + m /\ below n children v x /\ below n children v y.

(** [labels] numbers the classes of the relation [R] on the samples 0, ..., n-1 by
    0, ..., k-1. *)
Definition numbers (n k : Z) (R : Z -> Z -> Prop) (labels : list Z) : Prop :=
  zlen labels = n /\
  (forall l, In l labels <-> 0 <= l < k) /\
  (forall x y lx ly, Znth labels x = Some lx -> Znth labels y = Some ly -> (lx = ly <-> R x y)).

(** [children] and [distances] form a single linkage dendrogram for the dissimilarity [D]: every
    merge joins two nodes by a least dissimilarity of samples not joined so
    far. *)
Definition single_linkage (n : Z) (D : Z -> Z -> Qc) (children : list (Z * Z)) (distances : list Qc) : Prop :=
  merge_tree n children /\ zlen distances = n - 1 /\
  forall i a b d, Znth children i = Some (a, b) -> Znth distances i = Some d ->
    (exists x y, below n children a x /\ below n children b y /\ D x y = d) /\
    (forall x y, 0 <= x < n -> 0 <= y < n -> ~ joined n children i x y -> (d <= D x y)%Qc).

(** [x] and [y] are linked by a chain of samples at successive distances of at most [s]. *)
Inductive chain (n : Z) (D : Z -> Z -> Qc) (s : Qc) (x : Z) : Z -> Prop :=
| chain_here : chain n D s x x
| chain_step y z : chain n D s x y -> 0 <= z < n -> (D y z <= s)%Qc -> chain n D s x z.
