(** Specification of k-nearest-neighbour graphs, independent of KnnModel. *)
From Coq Require Import String Sorted.
From Verif Require Import Np Fl ValidModel GraphModel.
Open Scope Z_scope.

(** The graph of n points at distances d: from each point there are exactly k edges,
    to other points, none further away than any point without an edge; edges are
    stored row by row, with weights w. *)
Definition targets (stored : list (Z * Z * fl)) (i : Z) : list Z :=
  map (fun e : Z * Z * fl => snd (fst e)) (filter (fun e : Z * Z * fl => fst (fst e) =? i) stored).
Definition knn_graph (n k : Z) (d : Z -> Z -> Qc) (w : Z -> Z -> Qc) (g : adj) : Prop :=
  exists stored, g = Sparse n n stored /\
  (forall i j x, In (i, j, x) stored -> 0 <= i < n /\ 0 <= j < n /\ j <> i /\ x = Fin (w i j)) /\
  (forall i, 0 <= i < n -> NoDup (targets stored i) /\ zlen (targets stored i) = k) /\
  (forall i j j' x, In (i, j, x) stored -> 0 <= j' < n -> j' <> i -> (forall y, ~ In (i, j', y) stored) -> (d i j <= d i j')%Qc) /\
  StronglySorted (fun e e' : Z * Z * fl => fst (fst e) <= fst (fst e')) stored.
(** The edges of a graph. *)
Definition edge (g : adj) (i j : Z) : Prop :=
  match g with Sparse _ _ stored => exists x, In (i, j, x) stored | _ => False end.
(** Point j is among the k nearest to i if less than k other points are closer. *)
Definition closer (n : Z) (d : Z -> Z -> Qc) (i j : Z) (l : list Z) : Prop :=
  NoDup l /\ forall j', In j' l <-> 0 <= j' < n /\ j' <> i /\ (d i j' < d i j)%Qc.

(** A point cloud in an array; a collection of point clouds. *)
Definition holds (x : ValidModel.arr) (pts : list (list fl)) (n m : Z) : Prop :=
  a_kind x = ValidModel.Dense /\ a_shape x = [n; m] /\ a_data x = concat pts /\ zlen pts = n /\ forall r, In r pts -> zlen r = m.
Inductive contains : collection -> list (list (list fl)) -> Prop :=
| contains_array : forall n m clouds,
    (forall c, In c clouds -> zlen c = n /\ forall r, In r c -> zlen r = m) -> 0 <= n -> 0 <= m ->
    contains (CArr (MkArr ValidModel.Dense [zlen clouds; n; m] (concat (map (@concat fl) clouds)))) clouds
| contains_list : forall l clouds,
    Forall2 (fun x c => exists n m, holds x c n m) l clouds -> contains (CSeq l) clouds.

(** The distances between the points of a cloud, in the metric of some name: those in
    the matrix itself, or those given by the metric. *)
Inductive distances (metric : string) (dist : list fl -> list fl -> res fl) (c : list (list fl)) (d : Z -> Z -> Qc) : Prop :=
| distances_metric : metric <> "precomputed"%string ->
    (forall i j a b, Znth c i = Some a -> Znth c j = Some b -> dist a b = Ok (Fin (d i j))) -> distances metric dist c d
| distances_given : metric = "precomputed"%string ->
    (forall i row, Znth c i = Some row -> zlen row = zlen c) ->
    (forall i j row x, Znth c i = Some row -> Znth row j = Some x -> x = Fin (d i j) /\ (0 <= d i j)%Qc) -> distances metric dist c d.
(** A cloud of points with finite coordinates, none of which is closer to another one than
    to itself. *)
Definition proper_cloud (metric : string) (dist : list fl -> list fl -> res fl) (c : list (list fl)) (d : Z -> Z -> Qc) : Prop :=
  c <> [] /\ (forall r, In r c -> r <> []) /\ (forall r x, In r c -> In x r -> exists q, x = Fin q) /\
  distances metric dist c d /\ forall i j, 0 <= i < zlen c -> 0 <= j < zlen c -> (d i i <= d i j)%Qc.
(** The indices of k smallest entries of a row. *)
Definition smallest (row : list Qc) (k : Z) (l : list Z) : Prop :=
  zlen l = k /\ NoDup l /\ (forall j, In j l -> 0 <= j < zlen row) /\
  forall j j' a b, In j l -> ~ In j' l -> Znth row j = Some a -> Znth row j' = Some b -> (a <= b)%Qc.
