(** C54: TransitionGraph; C63: GraphGeodesicDistance. *)
From Coq Require Import String Sorting.Sorted.
From Verif Require Import Np NpFacts Fl FlFacts DiagProofs2 GraphModel GraphSpec GraphProofs.
Open Scope Z_scope.

(** [G] is the transition graph of the sequence of states [ss]: its vertices are the distinct
    states in lexicographic order; the entry (i, j) is the number of times the j-th state comes
    right after the i-th one if i <> j, and 0 if i = j. *)
Definition transition_graph_of (ss : list (list Qc)) (G : list (list Z)) : Prop :=
  exists V : list (list Qc),
    StronglySorted lex_lt V /\ (forall s, In s V <-> In s ss) /\ square G (zlen V) /\
    forall i j a b, Znth V i = Some a -> Znth V j = Some b ->
      entry G i j = Some (if i =? j then 0 else transitions ss a b).

Lemma entry_ext {A} (M M' : list (list A)) n :
  square M n -> square M' n -> (forall i j, 0 <= i < n -> 0 <= j < n -> entry M i j = entry M' i j) -> M = M'.
Proof.
  intros [L1 R1] [L2 R2] E. apply Znth_ext; [congruence|]. intros i Hi.
  rewrite L1 in Hi.
  destruct (Znth_ex M i) as [r Hr]; [lia|]. destruct (Znth_ex M' i) as [r' Hr']; [lia|].
  rewrite Hr, Hr'. f_equal. pose proof (R1 _ (Znth_In _ _ _ Hr)). pose proof (R2 _ (Znth_In _ _ _ Hr')).
  apply Znth_ext; [congruence|]. intros j Hj. specialize (E i j ltac:(lia) ltac:(lia)).
  unfold entry in E. now rewrite Hr, Hr' in E.
Qed.

Lemma transition_graph_of_unique ss G G' : transition_graph_of ss G -> transition_graph_of ss G' -> G = G'.
Proof.
  intros (V & S & I & Q & E) (V' & S' & I' & Q' & E').
  assert (V = V') as <-.
  { apply sorted_ext; auto. intro s. now rewrite I, I'. }
  eapply entry_ext; eauto. intros i j Hi Hj.
  destruct (Znth_ex V i) as [a Ha]; [lia|]. destruct (Znth_ex V j) as [b Hb]; [lia|].
  now rewrite (E i j a b), (E' i j a b).
Qed.

Lemma make_adjacency_graph f X ss : apply_along_rows f X = Ok ss ->
  exists G, make_adjacency_matrix f X = Ok G /\ transition_graph_of ss G.
Proof.
  intro H. unfold make_adjacency_matrix. rewrite H. cbn [bind].
  unfold np_unique. set (u := fold_right insert_row [] ss). eexists. split; [reflexivity|].
  exists u. split; [apply unique_sorted|]. split; [intro; apply In_unique|].
  unfold csr_matrix. split.
  - split; [apply zlen_tabZ, zlen_nonneg|]. intros r Hr. apply In_tabZ in Hr as (i & _ & <-).
    apply zlen_tabZ, zlen_nonneg.
  - intros i j a b Ha Hb. unfold entry.
    rewrite Znth_tabZ by (eapply Znth_Some_lt; eauto). rewrite Znth_tabZ by (eapply Znth_Some_lt; eauto).
    f_equal. rewrite removelast_spec, tl_spec, csr_entry_cnt, combine_tl.
    apply cnt_transitions; auto.
    + apply sorted_NoDup, unique_sorted.
    + intros s Hs. now apply In_unique.
Qed.

(** One sample: the graph of the sequence of states func gives for its rows. *)
Theorem transition_graph_spec f X G :
  make_adjacency_matrix f X = Ok G <->
  exists ss, X <> [] /\ Forall2 (fun x s => f x = Ok s) X ss /\
    (forall s s', In s ss -> In s' ss -> zlen s = zlen s') /\ transition_graph_of ss G.
Proof.
  split.
  - intro H. destruct (apply_along_rows f X) as [ss|e] eqn:E; [|unfold make_adjacency_matrix in H; now rewrite E in H].
    destruct (make_adjacency_graph _ _ _ E) as (G' & H' & T). rewrite H in H'. injection H' as <-.
    exists ss. apply apply_along_rows_ok in E. tauto.
  - intros (ss & N & F & L & T).
    destruct (make_adjacency_graph f X ss) as (G' & H' & T'); [now apply apply_along_rows_ok|].
    rewrite H'. f_equal. eapply transition_graph_of_unique; eauto.
Qed.

(** ... and the errors: no rows; the first row func fails on; states of different lengths. *)
Lemma mapM_Err_iff {A B} (f : A -> res B) l e : mapM f l = Err e <->
  exists before x after, l = before ++ x :: after /\ (forall z, In z before -> exists b, f z = Ok b) /\ f x = Err e.
Proof.
  induction l as [|a l IH]; cbn [mapM].
  { split; [discriminate|]. intros ([|] & ? & ? & H & _); discriminate H. }
  destruct (f a) as [b|e'] eqn:E; cbn [bind].
  - split.
    + intro H. destruct (mapM f l) as [bs|e'] eqn:M; [discriminate H|]. cbn [bind] in H. injection H as ->.
      destruct (proj1 IH eq_refl) as (before & x & after & -> & H & Ex). exists (a :: before), x, after.
      split; [reflexivity|]. split; auto. intros z [<-|I]; eauto.
    + intros ([|b' before] & x & after & H & K & Ex); cbn in H; injection H as -> ->; [congruence|].
      rewrite (proj2 IH); [reflexivity|]. exists before, x, after. split; [reflexivity|]. split; auto. intros z I. apply K. now right.
  - split.
    + intro H. injection H as ->. exists [], a, l. split; [reflexivity|]. split; [intros z []|exact E].
    + intros ([|b' before] & x & after & H & K & Ex); cbn in H; injection H as -> ->; [congruence|].
      destruct (K b' (or_introl eq_refl)) as [b Eb]. congruence.
Qed.
Theorem transition_graph_errors f X e :
  make_adjacency_matrix f X = Err e <->
  (X = [] /\ e = ValueError) \/
  (exists before x after, X = before ++ x :: after /\ (forall z, In z before -> exists s, f z = Ok s) /\ f x = Err e) \/
  (exists ss s s', Forall2 (fun x s => f x = Ok s) X ss /\ In s ss /\ In s' ss /\ zlen s <> zlen s' /\ e = ValueError).
Proof.
  assert (E : make_adjacency_matrix f X = Err e <-> apply_along_rows f X = Err e).
  { destruct (apply_along_rows f X) as [ss|e'] eqn:E.
    - destruct (make_adjacency_graph f X ss E) as (G & -> & _). split; discriminate.
    - unfold make_adjacency_matrix. rewrite E. cbn [bind]. split; intro H; injection H as ->; reflexivity. }
  rewrite E. clear E. unfold apply_along_rows. destruct X as [|x0 X0].
  - split; [intro H; injection H as <-; now left|]. intros [[_ ->]|[([|] & ? & ? & H & _)|(ss & s & s' & F & I & _)]]; try reflexivity; try discriminate H.
    inversion F; subst. destruct I.
  - set (X := x0 :: X0). destruct (mapM f X) as [rows|e'] eqn:M; cbn [bind].
    + pose proof (mapM_Ok_inv _ _ _ M) as F. destruct rows as [|r rows]; [inversion F|].
      destruct (forallb _ _) eqn:B.
      * split; [discriminate|]. intros [[H _]|[H|(ss & s & s' & F' & I & I' & N & _)]]; [discriminate H| |].
        { apply mapM_Err_iff in H. congruence. }
        exfalso. apply mapM_Forall2 in F'. rewrite M in F'. injection F' as <-. rewrite forallb_forall in B. apply B in I, I'. lia.
      * split; [|intros [[H _]|[H|(ss & s & s' & _ & _ & _ & _ & ->)]]; [discriminate H| |reflexivity]].
        { intro H. injection H as <-. right. right. apply Bool.not_true_iff_false in B. rewrite forallb_forall in B.
          destruct (existsb (fun r' => negb (zlen r' =? zlen r)) (r :: rows)) eqn:X1.
          - apply existsb_exists in X1 as (r' & I & N). exists (r :: rows), r, r'. split; auto. split; [now left|]. split; auto. split; [|reflexivity].
            apply Bool.negb_true_iff, Z.eqb_neq in N. congruence.
          - exfalso. apply B. intros r' I. destruct (zlen r' =? zlen r) eqn:Z1; auto. rewrite <- X1. apply existsb_exists. exists r'. now rewrite Z1. }
        apply mapM_Err_iff in H. congruence.
    + rewrite <- mapM_Err_iff. rewrite M. split; [intro H; injection H as ->; auto|]. intros [[H _]|[H|(ss & s & s' & F' & _)]]; [discriminate H|congruence|].
      apply mapM_Forall2 in F'. congruence.
Qed.

(** The collection: one graph for each sample.  The function is called without the keyword
    arguments given in func_params, whatever they are. *)
Theorem transition_graph_transform_spec {V} (func : option (list (string * V) -> list Qc -> res (list Qc))) fp X Gs :
  tg_transform (tg_fit func fp) X = Ok Gs <->
  Forall2 (fun x G => make_adjacency_matrix (match func with None => Ok | Some f => f [] end) x = Ok G) X Gs.
Proof.
  unfold tg_transform, tg_fit. cbn [tg_func].
  assert (E : forall x, make_adjacency_matrix (match func with None => fun _ r => Ok r | Some f => f end []) x =
    make_adjacency_matrix (match func with None => Ok | Some f => f [] end) x) by (now destruct func).
  split.
  - intro H. apply mapM_Ok_inv in H. induction H; constructor; auto. now rewrite <- E.
  - induction 1 as [|x G X Gs H F IH]; auto. cbn [mapM]. rewrite E, H. cbn [bind]. now rewrite IH.
Qed.
(** The doc says func_params are keyword arguments for func. *)
Theorem func_params_ignored {V} (func : option (list (string * V) -> list Qc -> res (list Qc))) fp fp' X :
  tg_transform (tg_fit func fp) X = tg_transform (tg_fit func fp') X.
Proof. reflexivity. Qed.

(** An edge between different states exactly when one comes right after the other. *)
Lemma transitions_cons x y t a b : transitions (x :: y :: t) a b =
  (if row_eq_dec x a then if row_eq_dec y b then 1 else 0 else 0) + transitions (y :: t) a b.
Proof. reflexivity. Qed.
Lemma transitions_nonneg ss a b : 0 <= transitions ss a b.
Proof.
  induction ss as [|x [|y t] IH]; [cbn; lia|cbn; lia|]. rewrite transitions_cons.
  destruct (row_eq_dec x a), (row_eq_dec y b); lia.
Qed.
Theorem transitions_positive ss a b :
  0 < transitions ss a b <-> exists t, Znth ss t = Some a /\ Znth ss (t + 1) = Some b.
Proof.
  induction ss as [|x [|y t] IH].
  - split; [cbn; lia|]. intros (k & H & _). apply Znth_Some_lt in H. cbn in H. lia.
  - split; [cbn; lia|]. intros (k & H & K). apply Znth_Some_lt in H, K. cbn in H, K. lia.
  - change (transitions (x :: y :: t) a b) with
      ((if row_eq_dec x a then if row_eq_dec y b then 1 else 0 else 0) + transitions (y :: t) a b).
    pose proof (transitions_nonneg (y :: t) a b). split.
    + intro P. destruct (Z_lt_dec 0 (transitions (y :: t) a b)) as [Q|Q].
      * apply IH in Q as (k & H1 & H2). exists (k + 1). pose proof (Znth_Some_lt _ _ _ H1).
        rewrite (Znth_cons x _ (k + 1)), (Znth_cons x _ (k + 1 + 1)) by lia. replace (k + 1 - 1) with k by lia. replace (k + 1 + 1 - 1) with (k + 1) by lia. auto.
      * destruct (row_eq_dec x a) as [->|]; [|lia]. destruct (row_eq_dec y b) as [->|]; [|lia].
        exists 0. now split.
    + intros (k & H1 & H2). pose proof (Znth_Some_lt _ _ _ H1).
      destruct (Z.eq_dec k 0) as [->|D].
      * rewrite Znth_0 in H1. change (0 + 1) with 1 in H2. rewrite Znth_cons in H2 by lia. change (1 - 1) with 0 in H2.
        rewrite Znth_0 in H2. injection H1 as ->. injection H2 as ->.
        destruct (row_eq_dec a a); [|easy]. destruct (row_eq_dec b b); [|easy]. lia.
      * rewrite Znth_cons in H1, H2 by lia.
        assert (0 < transitions (y :: t) a b); [|destruct (row_eq_dec x a), (row_eq_dec y b); lia].
        apply IH. exists (k - 1). split; auto. rewrite <- H2. f_equal. lia.
Qed.

(** Reading the time series backwards transposes the graph. *)
Lemma transitions_app l x y r a b :
  transitions (l ++ [x] ++ y :: r) a b =
  transitions (l ++ [x]) a b + (if row_eq_dec x a then if row_eq_dec y b then 1 else 0 else 0) + transitions (y :: r) a b.
Proof.
  induction l as [|z [|w l] IH].
  - cbn [app]. rewrite transitions_cons. cbn. lia.
  - cbn [app] in *. rewrite (transitions_cons z x (y :: r)), (transitions_cons z x []), (transitions_cons x y r).
    cbn [transitions]. lia.
  - cbn [app] in *. rewrite (transitions_cons z w (l ++ x :: y :: r)), (transitions_cons z w (l ++ [x])). lia.
Qed.
Lemma transitions_rev ss a b : transitions (rev ss) a b = transitions ss b a.
Proof.
  induction ss as [|x [|y t] IH]; auto.
  change (rev (x :: y :: t)) with ((rev t ++ [y]) ++ [x]). change (rev (y :: t)) with (rev t ++ [y]) in IH.
  rewrite <- app_assoc. change ([y] ++ [x]) with ([y] ++ x :: []). rewrite transitions_app, IH.
  rewrite transitions_cons. cbn [transitions]. destruct (row_eq_dec x b), (row_eq_dec y a); lia.
Qed.
Theorem transition_graph_reverse f X G i j :
  make_adjacency_matrix f X = Ok G ->
  exists G', make_adjacency_matrix f (rev X) = Ok G' /\ zlen G' = zlen G /\ entry G' i j = entry G j i.
Proof.
  intro H. apply transition_graph_spec in H as (ss & N & F & L & V & S & I & Q & E).
  assert (Fr : Forall2 (fun x s => f x = Ok s) (rev X) (rev ss)).
  { clear - F. induction F; cbn; [constructor|]. apply Forall2_app; auto. }
  destruct (make_adjacency_graph f (rev X) (rev ss)) as (G' & H' & V' & S' & I' & Q' & E').
  - apply apply_along_rows_ok. split; [|split; auto].
    + intro K. apply (f_equal (@rev _)) in K. rewrite rev_involutive in K. easy.
    + intros s s' Hs Hs'. apply in_rev in Hs, Hs'. auto.
  - exists G'. split; auto.
    assert (V' = V) as ->.
    { apply sorted_ext; auto. intro s. rewrite I, I', <- in_rev. tauto. }
    split; [destruct Q, Q'; congruence|].
    destruct (Znth V i) as [a|] eqn:Ha.
    + destruct (Znth V j) as [b|] eqn:Hb.
      * rewrite (E' _ _ _ _ Ha Hb), (E _ _ _ _ Hb Ha), transitions_rev, Z.eqb_sym. reflexivity.
      * unfold entry. destruct Q as [QL QR], Q' as [QL' QR'].
        rewrite (Znth_None G j). 2:{ destruct (Z_lt_dec j 0), (Z_lt_dec j (zlen V)); try lia.
          destruct (Znth_ex V j) as [? K]; [lia|congruence]. }
        destruct (Znth G' i) eqn:K; auto. apply Znth_None. rewrite (QR' _ (Znth_In _ _ _ K)).
        destruct (Z_lt_dec j 0), (Z_lt_dec j (zlen V)); try lia. destruct (Znth_ex V j) as [? ?]; [lia|congruence].
    + unfold entry. destruct Q as [QL QR], Q' as [QL' QR'].
      rewrite (Znth_None G' i). 2:{ destruct (Z_lt_dec i 0), (Z_lt_dec i (zlen V)); try lia.
        destruct (Znth_ex V i) as [? K]; [lia|congruence]. }
      destruct (Znth G j) eqn:K; auto. symmetry. apply Znth_None. rewrite (QR _ (Znth_In _ _ _ K)).
      destruct (Z_lt_dec i 0), (Z_lt_dec i (zlen V)); try lia. destruct (Znth_ex V i) as [? ?]; [lia|congruence].
Qed.

(** The documentation says the graphs are undirected and their matrices hold zeros and ones. *)
Example two_states : make_adjacency_matrix Ok [[qz 0]; [qz 1]] = Ok [[0; 1]; [0; 0]].
Proof. reflexivity. Qed.
Example example_doc : (* X[0] of the documentation, func = argsort *)
  make_adjacency_matrix Ok [[qz 1; qz 0]; [qz 0; qz 1]; [qz 1; qz 0]] = Ok [[0; 1]; [1; 0]].
Proof. reflexivity. Qed.
Example repeated_transition :
  make_adjacency_matrix Ok [[qz 0]; [qz 1]; [qz 1]; [qz 0]; [qz 1]] = Ok [[0; 2]; [1; 0]].
Proof. reflexivity. Qed.
Theorem transition_graph_symmetric_refuted :
  ~ (forall X G i j, make_adjacency_matrix Ok X = Ok G -> entry G i j = entry G j i).
Proof. intro H. now specialize (H _ _ 0 1 two_states). Qed.
Theorem transition_graph_binary_refuted :
  ~ (forall X G i j e, make_adjacency_matrix Ok X = Ok G -> entry G i j = Some e -> e = 0 \/ e = 1).
Proof. intro H. now destruct (H _ _ 0 1 2 repeated_transition eq_refl). Qed.
(** A func with a keyword argument: func_params sets it to 1, it is called with its default. *)
Example func_params_example :
  let f (kw : list (string * Qc)) (r : list Qc) := Ok (map (Qcmult (match kw with [] => 0%Qc | p :: _ => snd p end)) r) in
  tg_transform (tg_fit (Some f) (Some [("scale"%string, qz 1)])) [[[qz 0]; [qz 1]]] = Ok [[[0]]].
Proof. reflexivity. Qed.

Print Assumptions transition_graph_spec.
Print Assumptions transition_graph_errors.
Print Assumptions transition_graph_transform_spec.
Print Assumptions func_params_ignored.
Print Assumptions transitions_positive.
Print Assumptions transition_graph_reverse.
Print Assumptions transition_graph_symmetric_refuted.
Print Assumptions transition_graph_binary_refuted.
