(** Specifications for permutation entropy and Pearson dissimilarity (C09, C10). *)
From Coq Require Import Reals.
From Verif Require Import Np RNp MetricSpec FeatModel RescaleSpec.
From Verif Require Export FeatSpec.
Open Scope Z_scope.

(** ** Order patterns *)
(** How often [p] occurs in [l]. *)
Definition occurrences (p : list Z) (l : list (list Z)) : Z :=
  zlen (filter (fun q => if list_eq_dec Z.eq_dec q p then true else false) l).
(** [pats] lists the different elements of [l]. *)
Definition lists_the_different {A} (l pats : list A) : Prop := NoDup pats /\ forall p, In p pats <-> In p l.
(** The same comparisons hold in both rows. *)
Definition same_order (u v : list R) : Prop :=
  zlen u = zlen v /\
  forall i j a b c d, Znth u i = Some a -> Znth u j = Some b -> Znth v i = Some c -> Znth v j = Some d ->
    ((a < b)%R <-> (c < d)%R).
(** An argsort by comparisons: sorts, and depends on the comparisons only. *)
Definition comparison_argsort (argsort : list R -> list Z) : Prop :=
  (forall row, sorts row (argsort row)) /\
  (forall u v, same_order u v -> argsort u = argsort v).

(** ** Pearson correlation *)
Definition mean (v : list R) : R := (total v / IZR (zlen v))%R.
Definition sum_of_products (u v : list R) : R :=
  total (map (fun ab => ((fst ab - mean u) * (snd ab - mean v))%R) (combine u v)).
Definition pearson_correlation (u v : list R) : R :=
  (sum_of_products u v / (sqrt (sum_of_products u u) * sqrt (sum_of_products v v)))%R.
Definition constant (v : list R) : Prop := forall a b, In a v -> In b v -> a = b.
(** [v] is the j-th column of the table. *)
Definition is_column (table : list (list R)) (j : Z) (v : list R) : Prop :=
  Forall2 (fun row a => Znth row j = Some a) table v.
(** A table with n >= 1 rows and d >= 1 columns. *)
Definition table (x : list (list R)) (n d : Z) : Prop := 1 <= n /\ 1 <= d /\ zlen x = n /\ forall row, In row x -> zlen row = d.
(** v = a u + b *)
Definition affine (a b : R) (u v : list R) : Prop := Forall2 (fun x y => y = (a * x + b)%R) u v.
