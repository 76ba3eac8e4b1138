(** Vocabulary for the independence of Mapper from the order of the samples and from
    the unit of the filter values (C86). *)
From Coq Require Import Sorted.
From Verif Require Import Np Fl CoverModel MapperModel.
Open Scope Z_scope.

(** [sigma] rearranges 0, ..., n - 1. *)
Definition rearranges (n : Z) (sigma : Z -> Z) : Prop :=
  (forall s, 0 <= s < n -> 0 <= sigma s < n) /\
  (forall s t, 0 <= s < n -> 0 <= t < n -> sigma s = sigma t -> s = t).

(** Entry [s] of [l'] is entry [sigma s] of [l]. *)
Definition rearranged {A} (sigma : Z -> Z) (l l' : list A) : Prop :=
  zlen l' = zlen l /\ forall s, 0 <= s < zlen l -> Znth l' s = Znth l (sigma s).

(** The data: rows, or rows and columns of a distance matrix. *)
Definition square {A} (X : list (list A)) : Prop := forall r, In r X -> zlen r = zlen X.
Definition data_rearranged {A} (precomputed : bool) (sigma : Z -> Z) (X X' : list (list A)) : Prop :=
  if precomputed then square X /\ square X' /\ zlen X' = zlen X /\
    forall s t r r', 0 <= t < zlen X -> Znth X' s = Some r' -> Znth X (sigma s) = Some r -> Znth r' t = Znth r (sigma t)
  else rearranged sigma X X'.

(** The clusterer labels all samples it is given, and two samples get the same label
    or not whatever the order of the samples. *)
Definition order_free {A W} (precomputed : bool) (clusterer : list (list A) -> option W -> res (list Z)) : Prop :=
  (forall Y, exists ls, clusterer Y None = Ok ls /\ zlen ls = zlen Y) /\
  forall sigma Y Y' ls ls', rearranges (zlen Y) sigma -> data_rearranged precomputed sigma Y Y' ->
    clusterer Y None = Ok ls -> clusterer Y' None = Ok ls' ->
    forall s t, 0 <= s < zlen Y -> 0 <= t < zlen Y ->
      (Znth ls' s = Znth ls' t <-> Znth ls (sigma s) = Znth ls (sigma t)).

(** Some edge joins nodes [x] and [y], in one direction or the other. *)
Definition joined (es : list edge) (x y w : Z) (elems : option (list Z)) : Prop :=
  exists e, In e es /\ (e_src e = x /\ e_dst e = y \/ e_src e = y /\ e_dst e = x) /\
    e_weight e = w /\ e_elems e = elems.

(** [l'] is [l] in the new numbering of the samples. *)
Definition renumbered (n : Z) (sigma : Z -> Z) (l l' : list Z) : Prop :=
  forall s, In s l' <-> 0 <= s < n /\ In (sigma s) l.

(** The two graphs are the same up to the order of the nodes and the numbering of the
    samples. *)
Definition same_graph (n : Z) (sigma : Z -> Z)
  (nodes : list ((Z * Z) * list Z)) (es : list edge)
  (nodes' : list ((Z * Z) * list Z)) (es' : list edge) : Prop :=
  exists tau : Z -> Z,
    (forall x, 0 <= x < zlen nodes -> 0 <= tau x < zlen nodes') /\
    (forall x y, 0 <= x < zlen nodes -> 0 <= y < zlen nodes -> tau x = tau y -> x = y) /\
    (forall y, 0 <= y < zlen nodes' -> exists x, 0 <= x < zlen nodes /\ tau x = y) /\
    (forall x k l k' l', Znth nodes x = Some (k, l) -> Znth nodes' (tau x) = Some (k', l') ->
       fst k' = fst k /\ renumbered n sigma l l') /\
    (forall x y w, 0 <= x < zlen nodes -> 0 <= y < zlen nodes ->
       ((exists m, joined es x y w m) <-> (exists m, joined es' (tau x) (tau y) w m))) /\
    (forall x y w w' m m', 0 <= x < zlen nodes -> 0 <= y < zlen nodes ->
       joined es x y w m -> joined es' (tau x) (tau y) w' m' ->
       match m, m' with
       | Some l, Some l' => renumbered n sigma l l'
       | None, None => True
       | _, _ => False
       end).

(** [f] preserves and reflects the order of the filter values. *)
Definition increasing_map (f : Qc -> Qc) : Prop := forall x y, (x < y)%Qc <-> (f x < f y)%Qc.
Definition positive_affine (f : Qc -> Qc) : Prop := exists a b, (0 < a)%Qc /\ forall x, f x = (a * x + b)%Qc.

(** A change of unit that keeps what the cover uses: the intervals of a uniform cover
    have equal lengths, those of a balanced cover only follow the order of the values. *)
Definition change_of_unit (p : cover_params) (f : Qc -> Qc) : Prop :=
  match kind p with Uniform => positive_affine f | Balanced => increasing_map f end.
(** A limit in the new unit. *)
Definition limit_in_unit (f : Qc -> Qc) (x : fl) : fl := match x with Fin q => Fin (f q) | _ => x end.
(** Column [i] of the data in the unit [f i]. *)
Definition in_units (f : Z -> Qc -> Qc) (rows : list (list Qc)) : list (list Qc) := map (mapi f) rows.
