(** C63: GraphGeodesicDistance gives scipy the documented graph, with a method able to handle it. *)
From Coq Require Import String.
From Verif Require Import Np NpFacts Fl FlFacts HomProofs GraphModel GraphSpec GraphProofs GraphThms.
Open Scope Z_scope.

(** An array as numpy has them: square; plain arrays have no masked entries; Boolean arrays hold
    True (1) and False (0).  Sparse matrices store entries within their shape. *)
Definition proper (X : adj) : Prop :=
  match X with
  | Dense masked boolean rows =>
      square rows (zlen rows) /\
      (masked = false -> forall i j, entry rows i j <> Some None) /\
      (boolean = true -> forall i j w, entry rows i j = Some (Some w) -> w = Fin 0%Qc \/ w = Fin 1%Qc)
  | Sparse r c stored => forall i j w, In (i, j, w) stored -> 0 <= i < r /\ 0 <= j < c
  end.

Lemma In_entries {A} (rows : list (list A)) i j x : In (i, j, x) (entries rows) <-> entry rows i j = Some x.
Proof.
  unfold entries, entry. unfold mapi at 1. rewrite In_concat_mapi. cbn [Z.add]. split.
  - intros (k & r & Hr & Hx). apply In_Znth in Hx as (p & _ & Hp). rewrite Znth_mapi in Hp.
    destruct (Znth r p) as [z|] eqn:E; [|easy]. injection Hp as <- <- <-. now rewrite Hr.
  - destruct (Znth rows i) as [r|] eqn:E; [|easy]. intro H. exists i, r. split; auto.
    apply (Znth_In _ j). rewrite Znth_mapi, H. reflexivity.
Qed.
Lemma any_unmasked_iff p rows :
  any_unmasked p rows = true <-> exists i j x, entry rows i j = Some (Some x) /\ p i j x = true.
Proof.
  unfold any_unmasked. rewrite existsb_exists. split.
  - intros ([[i j] [x|]] & H & K); [|easy]. cbn in K. apply In_entries in H. now exists i, j, x.
  - intros (i & j & x & H & K). exists (i, j, Some x). split; auto. now apply In_entries.
Qed.
Lemma entry_map {A B} (f : A -> B) rows i j : entry (map (map f) rows) i j = option_map f (entry rows i j).
Proof. unfold entry. rewrite Znth_map. destruct (Znth rows i); cbn; auto. apply Znth_map. Qed.

(** The edges scipy sees are the documented ones, on all the vertices. *)
Theorem geodesic_graph_spec method X g m :
  proper X -> geodesic_arguments method X = (g, m) ->
  scipy_accepts g /\ vertices g = vertices X /\
  forall i j w, scipy_edge g i j w <-> documented_edge X i j w.
Proof.
  destruct X as [masked boolean rows|r c stored]; cbn [proper geodesic_arguments].
  - intros (S & N & B) H.
    destruct masked, boolean; cbn [negb] in H; injection H as <- _; cbn [scipy_accepts vertices].
    + split; [exact S|]. split; [reflexivity|]. reflexivity.
    + split; [exact S|]. split; [reflexivity|]. reflexivity.
    + split; [exact S|]. split; [reflexivity|]. intros i j w. cbn. split; [tauto|].
      intros [H K]. repeat split; auto. destruct (B eq_refl _ _ _ H) as [->| ->]; eauto.
    + unfold masked_invalid. rewrite zlen_map. split; [|split; [reflexivity|]].
      * destruct S as [_ S]. split; [now rewrite zlen_map|]. intros r Hr. apply in_map_iff in Hr as (r' & <- & Hr).
        rewrite zlen_map. auto.
      * intros i j w. cbn. rewrite entry_map. destruct (entry rows i j) as [[w'|]|]; cbn; [| |easy].
        -- destruct w'; cbn; (split; [intro H|intros [H [q' K]]]); try congruence.
           split; [congruence|]. injection H as <-. eauto.
        -- split; [easy|]. now intros [H _].
  - intros P H. destruct (Z.eqb_spec r c) as [->|D]; injection H as <- _; cbn.
    + repeat split; auto. 
    + repeat split; auto. lia.
Qed.

(** The method is the user's, except for a dense array with a zero off the diagonal (an edge of
    length 0, or a missing one of a Boolean array): 'auto' and 'FW' become 'J' if there are negative
    entries and 'D' otherwise. *)
Definition has_zero (X : adj) : Prop :=
  match X with
  | Dense _ _ rows => exists i j, i <> j /\ entry rows i j = Some (Some (Fin 0%Qc))
  | Sparse _ _ _ => False
  end.
Definition has_negative (X : adj) : Prop :=
  match X with
  | Dense _ _ rows => exists i j w, entry rows i j = Some (Some w) /\ flt w (Fin 0%Qc) = true
  | Sparse _ _ _ => False
  end.
Theorem geodesic_method_spec method X g m :
  geodesic_arguments method X = (g, m) ->
  (has_zero X /\ (method = "auto" \/ method = "FW")%string /\ has_negative X /\ m = "J"%string) \/
  (has_zero X /\ (method = "auto" \/ method = "FW")%string /\ ~ has_negative X /\ m = "D"%string) \/
  (~ (has_zero X /\ (method = "auto" \/ method = "FW")%string) /\ m = method).
Proof.
  destruct X as [masked boolean rows|r c stored]; cbn [geodesic_arguments].
  - intro H.
    assert (Hm : m = if any_unmasked (fun i j x => negb (truthy x || (i =? j))) rows then
          if (String.eqb method "auto" || String.eqb method "FW")%bool then
            if any_unmasked (fun _ _ x => flt x (Fin 0%Qc)) rows then "J"%string else "D"%string
          else method
        else method).
    { destruct masked, boolean; cbn [negb] in H; now injection H as _ <-. }
    clear H. cbn [has_zero has_negative].
    assert (Z0 : any_unmasked (fun i j x => negb (truthy x || (i =? j))) rows = true <->
      exists i j, i <> j /\ entry rows i j = Some (Some (Fin 0%Qc))).
    { rewrite any_unmasked_iff. split.
      - intros (i & j & x & H & K). exists i, j. apply negb_true_iff, orb_false_iff in K as [K1 K2].
        apply Z.eqb_neq in K2. unfold truthy in K1. apply negb_false_iff, feq_eq in K1. now subst.
      - intros (i & j & D & H). exists i, j, (Fin 0%Qc). split; auto. apply Z.eqb_neq in D. rewrite D. reflexivity. }
    assert (N0 : any_unmasked (fun _ _ x => flt x (Fin 0%Qc)) rows = true <->
      exists i j w, entry rows i j = Some (Some w) /\ flt w (Fin 0%Qc) = true).
    { apply any_unmasked_iff. }
    assert (M0 : (String.eqb method "auto" || String.eqb method "FW")%bool = true <-> (method = "auto" \/ method = "FW")%string).
    { rewrite orb_true_iff, !String.eqb_eq. reflexivity. }
    destruct (any_unmasked (fun i j x => negb _) rows).
    + destruct (String.eqb method "auto" || String.eqb method "FW")%bool.
      * destruct (any_unmasked (fun _ _ x => flt x _) rows).
        -- left. tauto.
        -- right; left. repeat split; try tauto. intro K. now apply N0 in K.
      * right; right. split; auto. intros [_ K]. now apply M0 in K.
    + right; right. split; auto. intros [K _]. now apply Z0 in K.
  - intro H. right; right. split; [cbn; tauto|]. destruct (r =? c); now injection H.
Qed.

(** If scipy's shortest_path is right for the graphs and methods it supports -- on dense arrays,
    'auto' and 'FW' take a zero for a missing edge; 'D' needs weights that are not negative -- then
    transform gives, for each sample, the geodesic distances of the documented graph.  [dist] is any
    notion of distance matrix of a number of vertices and a set of edges. *)
Definition supported (g : adj) (m : string) : Prop :=
  ((m = "auto" \/ m = "FW")%string -> match g with
     | Dense _ _ rows => forall i j, i <> j -> ~ scipy_edge g i j (Fin 0%Qc)
     | Sparse _ _ _ => True end) /\
  (m = "D"%string -> forall i j w, scipy_edge g i j w -> flt w (Fin 0%Qc) = false).
Theorem geodesic_transform_spec {M} (shortest_path : adj -> bool -> bool -> string -> res M) shape directed unweighted
  (dist : Z -> (Z -> Z -> fl -> Prop) -> M) method X :
  (forall g m E, scipy_accepts g -> supported g m -> (forall i j w, scipy_edge g i j w <-> E i j w) ->
     shortest_path g directed unweighted m = Ok (dist (vertices g) E)) ->
  X <> [] -> (forall x, In x X -> proper x) ->
  (method = "D"%string -> forall x i j w, In x X -> documented_edge x i j w -> flt w (Fin 0%Qc) = false) ->
  exists one, geodesic_transform shortest_path shape directed unweighted method X =
    Ok (one, map (fun x => dist (vertices x) (documented_edge x)) X) /\
    (one = true <-> forall x y, In x X -> In y X ->
       shape (dist (vertices x) (documented_edge x)) = shape (dist (vertices y) (documented_edge y))).
Proof.
  intros SP NE P D. unfold geodesic_transform.
  assert (E : mapM (fun x => let '(g, m) := geodesic_arguments method x in shortest_path g directed unweighted m) X =
    Ok (map (fun x => dist (vertices x) (documented_edge x)) X)).
  { apply mapM_Ok. intros x Hx. destruct (geodesic_arguments method x) as [g m] eqn:Eg.
    destruct (geodesic_graph_spec _ _ _ _ (P x Hx) Eg) as (A & Hv & He). rewrite <- Hv. apply SP; auto.
    split.
    - intro Hm. destruct g as [mk bo rows|]; auto. intros i j Hij K.
      destruct (geodesic_method_spec _ _ _ _ Eg) as [(_ & _ & _ & ->)|[(_ & _ & _ & ->)|(N & ->)]].
      + destruct Hm; discriminate.
      + destruct Hm; discriminate.
      + apply N. split; auto. apply He in K. destruct x as [mk' bo' rows'|r c st].
        * exists i, j. split; auto. destruct mk', bo'; cbn in K; tauto.
        * cbn in Eg. destruct (Z.eqb r c); discriminate.
    - intros -> i j w K. apply He in K.
      destruct (geodesic_method_spec _ _ _ _ Eg) as [(_ & _ & _ & ?)|[(Z0 & _ & N & _)|(_ & Em)]]; [discriminate| |].
      + destruct (flt w (Fin 0%Qc)) eqn:Fw; auto. destruct N. destruct x as [mk' bo' rows'|r c st]; [|easy].
        exists i, j, w. split; auto. destruct mk', bo'; cbn in K; tauto.
      + apply (D (eq_sym Em) x i j w Hx K). }
  rewrite E. cbn [bind]. destruct X as [|x0 X]; [easy|]. cbn [map].
  rewrite (py_get_in _ 0 (dist (vertices x0) (documented_edge x0))) by (try lia; apply Znth_0). cbn [bind].
  eexists. split; [reflexivity|]. change (?a :: map ?f X) with (map f (x0 :: X)).
  set (f := fun x => dist (vertices x) (documented_edge x)). change (dist (vertices x0) (documented_edge x0)) with (f x0).
  change (f x0 :: map f X) with (map f (x0 :: X)). rewrite forallb_forall. split.
  - intro H.
    assert (K : forall x, In x (x0 :: X) -> shape (f x) = shape (f x0)).
    { intros x Hx. specialize (H (f x) (in_map f _ _ Hx)). apply andb_true_iff in H as [H1 H2].
      apply Z.eqb_eq in H1, H2. destruct (shape (f x)), (shape (f x0)). cbn in *. congruence. }
    intros x y Hx Hy. fold (f x) (f y). rewrite (K x Hx), (K y Hy). reflexivity.
  - intros H z Hz. apply in_map_iff in Hz as (x & <- & Hx).
    specialize (H x x0 Hx (or_introl eq_refl)). fold (f x) (f x0) in H. rewrite H, !Z.eqb_refl. reflexivity.
Qed.
(** On no samples: an IndexError. *)
Theorem geodesic_transform_empty {M} (sp : adj -> bool -> bool -> string -> res M) shape d u m :
  geodesic_transform sp shape d u m [] = Err IndexError.
Proof. reflexivity. Qed.

Example geodesic_zero_edge :
  geodesic_arguments "auto" (Dense false false [[Some (Fin 0%Qc); Some (Fin 0%Qc)]; [Some PInf; Some (Fin 0%Qc)]]) =
  (Dense true false [[Some (Fin 0%Qc); Some (Fin 0%Qc)]; [None; Some (Fin 0%Qc)]], "D"%string).
Proof. reflexivity. Qed.
Example geodesic_proper : proper (Dense false false [[Some (Fin 0%Qc); Some (Fin 0%Qc)]; [Some PInf; Some (Fin 0%Qc)]]).
Proof.
  repeat split; try easy.
  - intros r [<-|[<-|[]]]; reflexivity.
  - intros _ i j H. apply In_entries in H. cbn in H. intuition discriminate.
Qed.
Example geodesic_rectangular :
  geodesic_arguments "auto" (Sparse 1 3 [(0, 2, Fin 1%Qc)]) = (Sparse 3 3 [(0, 2, Fin 1%Qc)], "auto"%string).
Proof. reflexivity. Qed.

Print Assumptions geodesic_graph_spec.
Print Assumptions geodesic_method_spec.
Print Assumptions geodesic_transform_spec.
