(** Lemmas for the graph constructions. *)
From Coq Require Import String Sorting.Sorted.
From Verif Require Import Np NpFacts Fl FlFacts DiagProofs2 GraphModel GraphSpec.
Open Scope Z_scope.

Lemma row_eqb_eq a b : row_eqb a b = true <-> a = b.
Proof.
  revert b; induction a as [|x a IH]; intros [|y b]; cbn; try easy.
  rewrite andb_true_iff, Qceqb_eq, IH. split; [intros [-> ->]; auto | now injection 1].
Qed.
Lemma row_eqb_refl a : row_eqb a a = true. Proof. now apply row_eqb_eq. Qed.
Lemma row_ltb_lt a b : row_ltb a b = true <-> lex_lt a b.
Proof.
  revert b; induction a as [|x a IH]; intros [|y b]; cbn; split; intro H; try easy; try (now constructor).
  - apply orb_true_iff in H as [H|H].
    + apply lex_head. now apply Qcltb_lt.
    + apply andb_true_iff in H as [H1 H2]. apply Qceqb_eq in H1 as ->. apply lex_tail. now apply IH.
  - inversion H; subst.
    + apply orb_true_iff; left. now apply Qcltb_lt.
    + apply orb_true_iff; right. apply andb_true_iff. split; [now apply Qceqb_eq | now apply IH].
Qed.
Lemma lex_trans a b c : lex_lt a b -> lex_lt b c -> lex_lt a c.
Proof.
  intro H; revert c; induction H; intros c K; inversion K; subst; try (now constructor).
  - apply lex_head. eapply Qclt_trans; eauto.
  - apply lex_tail. auto.
Qed.
Lemma lex_irrefl a : ~ lex_lt a a.
Proof. induction a; intro H; inversion H; subst; auto. now apply Qclt_not_eq in H1. Qed.
Lemma lex_total a b : row_ltb a b = false -> row_eqb a b = false -> lex_lt b a.
Proof.
  revert b; induction a as [|x a IH]; intros [|y b]; cbn; intros H K; try easy; try (now constructor).
  apply orb_false_iff in H as [H1 H2].
  destruct (Qcltb_spec x y); [easy|]. destruct (Qceqb_spec x y) as [->|N]; cbn in *.
  - apply lex_tail. now apply IH.
  - apply lex_head. apply Qcnlt in n. apply Qcle_lt_or_eq in n as [|]; congruence.
Qed.

Lemma In_insert_row s r l : In s (insert_row r l) <-> s = r \/ In s l.
Proof.
  induction l as [|h t IH]; cbn; [intuition|].
  destruct (row_ltb r h) eqn:E1; cbn; [intuition|].
  destruct (row_eqb r h) eqn:E2; cbn.
  - apply row_eqb_eq in E2. subst. intuition.
  - rewrite IH. intuition.
Qed.
Lemma insert_row_sorted r l : StronglySorted lex_lt l -> StronglySorted lex_lt (insert_row r l).
Proof.
  induction 1 as [|h t S IH F]; cbn; [repeat constructor|].
  destruct (row_ltb r h) eqn:E1.
  - apply row_ltb_lt in E1. constructor; [now constructor|].
    constructor; auto. rewrite Forall_forall in *. intros x Hx. eapply lex_trans; eauto.
  - destruct (row_eqb r h) eqn:E2; [now constructor|].
    constructor; auto. rewrite Forall_forall in *. intros x Hx.
    apply In_insert_row in Hx as [->|Hx]; auto. now apply lex_total.
Qed.
Lemma In_unique s rows : In s (fold_right insert_row [] rows) <-> In s rows.
Proof. induction rows; cbn; [easy|]. rewrite In_insert_row, IHrows. intuition. Qed.
Lemma unique_sorted rows : StronglySorted lex_lt (fold_right insert_row [] rows).
Proof. induction rows; cbn; [constructor|]. now apply insert_row_sorted. Qed.

Lemma sorted_NoDup l : StronglySorted lex_lt l -> NoDup l.
Proof.
  induction 1 as [|h t S IH F]; constructor; auto. rewrite Forall_forall in F.
  intro K. now apply F, lex_irrefl in K.
Qed.
Lemma sorted_ext l l' : StronglySorted lex_lt l -> StronglySorted lex_lt l' ->
  (forall s, In s l <-> In s l') -> l = l'.
Proof.
  intro S; revert l'; induction S as [|h t S IH F]; intros l' S' E.
  - destruct l' as [|x l']; auto. destruct (proj2 (E x) (or_introl eq_refl)).
  - destruct S' as [|h' t' S' F']; [destruct (proj1 (E h) (or_introl eq_refl))|].
    rewrite Forall_forall in *.
    assert (h = h') as <-.
    { destruct (proj1 (E h) (or_introl eq_refl)) as [|H]; auto.
      destruct (proj2 (E h') (or_introl eq_refl)) as [|K]; auto.
      apply F' in H. apply F in K. now destruct (lex_irrefl h (lex_trans _ _ _ K H)). }
    f_equal. apply IH; auto. intro s. specialize (E s). cbn in E. split; intro H.
    + destruct (proj1 E (or_intror H)) as [<-|]; auto. now apply F, lex_irrefl in H.
    + destruct (proj2 E (or_intror H)) as [<-|]; auto. now apply F', lex_irrefl in H.
Qed.

Lemma index_of_Znth r l : In r l -> Znth l (index_of r l) = Some r.
Proof.
  induction l as [|h t IH]; cbn [In index_of]; [easy|]. intro H.
  destruct (row_eqb r h) eqn:E; [apply row_eqb_eq in E; subst; apply Znth_0|].
  destruct H as [->|H]; [now rewrite row_eqb_refl in E|]. specialize (IH H).
  pose proof (Znth_Some_lt _ _ _ IH). rewrite Znth_cons by lia. replace (1 + _ - 1) with (index_of r t) by lia. auto.
Qed.
Lemma NoDup_Znth {A} (l : list A) i j x : NoDup l -> Znth l i = Some x -> Znth l j = Some x -> i = j.
Proof.
  intros N H K. pose proof (Znth_Some_lt _ _ _ H). pose proof (Znth_Some_lt _ _ _ K).
  unfold Znth in *. destruct (i <? 0) eqn:?; [easy|]. destruct (j <? 0) eqn:?; [easy|].
  apply Z2Nat.inj; try lia. eapply NoDup_nth_error; eauto; [|congruence].
  unfold zlen in *. lia.
Qed.

Lemma combine_tl {A} (l : list A) : combine (removelast l) (tl l) = combine l (tl l).
Proof.
  induction l as [|x [|y t] IH]; auto. cbn [tl] in *. 
  change (removelast (x :: y :: t)) with (x :: removelast (y :: t)). cbn [combine]. f_equal.
  destruct t as [|z t]; auto.
Qed.

Fixpoint cnt (ps : list (Z * Z)) (i j : Z) : Z :=
  match ps with
  | [] => 0
  | p :: t => (if negb (fst p =? snd p) && ((fst p =? i) && (snd p =? j)) then 1 else 0) + cnt t i j
  end.
Lemma csr_entry_cnt f : forall s i j,
  let m := map (fun p => negb (fst p =? snd p)) (combine f s) in
  csr_entry (repeat 1 (Z.to_nat (count_true m))) (select f m) (select s m) i j = cnt (combine f s) i j.
Proof.
  induction f as [|x f IH]; intros [|y s] i j; cbn [combine map cnt]; try reflexivity.
  specialize (IH s i j). cbn zeta in *. cbn [fst snd].
  destruct (x =? y) eqn:E; cbn [negb].
  - unfold count_true, select in *. cbn [combine filter snd]. exact IH.
  - unfold count_true, select in *. cbn [combine filter snd]. cbn [negb]. rewrite zlen_cons.
    set (n := zlen _) in *. assert (0 <= n) by apply zlen_nonneg.
    replace (Z.to_nat (n + 1)) with (S (Z.to_nat n)) by lia. cbn [repeat map].
    unfold csr_entry in *. cbn [combine map fold_right fst snd]. cbn [negb andb].
    now rewrite IH.
Qed.

Lemma cnt_transitions (u : list (list Qc)) ss i j a b :
  NoDup u -> (forall s, In s ss -> In s u) -> Znth u i = Some a -> Znth u j = Some b ->
  let idx := map (fun r => index_of r u) ss in
  cnt (combine idx (tl idx)) i j = if i =? j then 0 else transitions ss a b.
Proof.
  intros N I Ha Hb. cbn zeta. induction ss as [|x [|y t] IH].
  - now destruct (i =? j).
  - now destruct (i =? j).
  - set (ix := fun r => index_of r u) in *.
    change (cnt (combine (map ix (x :: y :: t)) (tl (map ix (x :: y :: t)))) i j) with
      ((if negb (ix x =? ix y) && ((ix x =? i) && (ix y =? j)) then 1 else 0) +
       cnt (combine (map ix (y :: t)) (tl (map ix (y :: t)))) i j).
    change (transitions (x :: y :: t) a b) with
      ((if row_eq_dec x a then if row_eq_dec y b then 1 else 0 else 0) + transitions (y :: t) a b).
    rewrite IH by (intros; apply I; now right). unfold ix in *.
    assert (Ex : (index_of x u =? i) = if row_eq_dec x a then true else false).
    { destruct (row_eq_dec x a) as [->|D].
      - apply Z.eqb_eq. eapply NoDup_Znth; eauto. apply index_of_Znth, I. now left.
      - apply Z.eqb_neq. intro K. subst i. rewrite index_of_Znth in Ha by (apply I; now left). congruence. }
    assert (Ey : (index_of y u =? j) = if row_eq_dec y b then true else false).
    { destruct (row_eq_dec y b) as [->|D].
      - apply Z.eqb_eq. eapply NoDup_Znth; eauto. apply index_of_Znth, I. right; now left.
      - apply Z.eqb_neq. intro K. subst j. rewrite index_of_Znth in Hb by (apply I; right; now left). congruence. }
    rewrite Ex, Ey. destruct (row_eq_dec x a) as [->|Nx], (row_eq_dec y b) as [->|Ny];
      rewrite ?andb_false_r; cbn [andb]; try (destruct (i =? j); lia).
    apply Z.eqb_eq in Ex, Ey. rewrite Ex, Ey. destruct (i =? j); cbn; lia.
Qed.

Lemma apply_along_rows_ok f X ss :
  apply_along_rows f X = Ok ss <->
  X <> [] /\ Forall2 (fun x s => f x = Ok s) X ss /\ (forall s s', In s ss -> In s' ss -> zlen s = zlen s').
Proof.
  unfold apply_along_rows. split.
  - destruct X as [|x X]; [easy|]. destruct (mapM f (x :: X)) as [rows|e] eqn:E; [|easy]. cbn [bind].
    apply mapM_Ok_inv in E. destruct rows as [|r rows]; [easy|].
    destruct (forallb _ _) eqn:F; [|easy]. injection 1 as <-. split; [easy|]. split; auto.
    rewrite forallb_forall in F. intros s s' Hs Hs'. apply F in Hs, Hs'. lia.
  - intros (N & F & L). destruct X as [|x X]; [easy|].
    assert (mapM f (x :: X) = Ok ss) as ->.
    { now apply mapM_Forall2. }
    cbn [bind]. inversion F; subst. 
    rewrite (proj2 (forallb_forall _ _)); auto. intros s Hs. rewrite (L s y); auto. apply Z.eqb_refl. now left.
Qed.
