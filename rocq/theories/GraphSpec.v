(** Specifications for the graph constructions. *)
From Coq Require Import String.
From Verif Require Import Np Fl GraphModel.
Open Scope Z_scope.

(** Rows in lexicographic order, strictly. *)
Inductive lex_lt : list Qc -> list Qc -> Prop :=
| lex_end y b : lex_lt [] (y :: b)
| lex_head x y a b : (x < y)%Qc -> lex_lt (x :: a) (y :: b)
| lex_tail x a b : lex_lt a b -> lex_lt (x :: a) (x :: b).

Definition row_eq_dec : forall a b : list Qc, {a = b} + {a <> b} := list_eq_dec Qc_eq_dec.

(** How many times state b comes right after state a in a sequence of states. *)
Fixpoint transitions (s : list (list Qc)) (a b : list Qc) : Z :=
  match s with
  | x :: (y :: _) as t =>
      (if row_eq_dec x a then if row_eq_dec y b then 1 else 0 else 0) + transitions t a b
  | _ => 0
  end.

(** The entry (i, j) of a matrix. *)
Definition entry {A} (M : list (list A)) (i j : Z) : option A :=
  match Znth M i with Some r => Znth r j | None => None end.
(** An n x n matrix. *)
Definition square {A} (M : list (list A)) (n : Z) : Prop :=
  zlen M = n /\ forall r, In r M -> zlen r = n.

(** The edges of a graph, as the documentation of GraphGeodesicDistance says: dense Boolean
    arrays, dense numeric arrays (all finite entries, zero or not), sparse matrices (all stored
    entries).  In a masked array, the entries not masked. *)
Definition documented_edge (X : adj) (i j : Z) (w : fl) : Prop :=
  match X with
  | Dense true _ rows => entry rows i j = Some (Some w)
  | Dense false true rows => entry rows i j = Some (Some w) /\ w <> Fin 0%Qc
  | Dense false false rows => entry rows i j = Some (Some w) /\ exists q, w = Fin q
  | Sparse _ _ stored => In (i, j, w) stored
  end.
(** The number of vertices. *)
Definition vertices (X : adj) : Z :=
  match X with Dense _ _ rows => zlen rows | Sparse r c _ => Z.max r c end.

(** What scipy's shortest_path takes for the edges of its argument: plain dense arrays have no
    edges at zero, infinite or NaN entries; masked arrays have one at each entry not masked. *)
Definition scipy_edge (X : adj) (i j : Z) (w : fl) : Prop :=
  match X with
  | Dense true _ rows => entry rows i j = Some (Some w)
  | Dense false _ rows => entry rows i j = Some (Some w) /\ w <> Fin 0%Qc /\ exists q, w = Fin q
  | Sparse _ _ stored => In (i, j, w) stored
  end.
Definition scipy_accepts (X : adj) : Prop :=
  match X with Dense _ _ rows => square rows (zlen rows) | Sparse r c _ => r = c end.
