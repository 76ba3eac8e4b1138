(** Lemmas about removal of empty and duplicate mask columns. *)
From Coq Require Import Permutation Sorted Relation_Operators Operators_Properties.
From Verif Require Import Np NpFacts Fl FlFacts CoverModel CoverSpec.
Open Scope Z_scope.

Lemma col_eqb_eq a b : col_eqb a b = true <-> a = b.
Proof.
  revert b; induction a as [|x a IH]; destruct b as [|y b]; cbn; try (split; congruence).
  rewrite andb_true_iff, IH. split.
  - intros [H ->]. apply eqb_prop in H. now subst.
  - intros H; injection H as -> ->. split; [apply eqb_reflx|reflexivity].
Qed.
Lemma existsb_col c l : existsb (col_eqb c) l = true <-> In c l.
Proof.
  rewrite existsb_exists. split.
  - intros [x [H E]]. apply col_eqb_eq in E. now subst.
  - intros H. exists c. split; [assumption|now apply col_eqb_eq].
Qed.
Lemma existsb_col_false c l : existsb (col_eqb c) l = false <-> ~ In c l.
Proof. rewrite <- existsb_col. destruct (existsb _ _); split; congruence. Qed.
Definition any (c : list bool) : bool := existsb (fun b => b) c.
Lemma any_true c : any c = true <-> In true c.
Proof.
  unfold any. rewrite existsb_exists. split.
  - intros [x [H E]]. now subst.
  - intros H. now exists true.
Qed.
Lemma any_false c : any c = false <-> ~ In true c.
Proof. rewrite <- any_true. destruct (any c); split; congruence. Qed.

(** sort_by *)
Section SortFacts.
  Context {A : Type} (leb : A -> A -> bool).
  Lemma insert_perm x l : Permutation (x :: l) (insert_by leb x l).
  Proof.
    induction l as [|y t IH]; cbn; [reflexivity|]. destruct (leb x y); [reflexivity|].
    rewrite perm_swap. now constructor.
  Qed.
  Lemma sort_perm l : Permutation l (sort_by leb l).
  Proof.
    induction l as [|y t IH]; cbn; [reflexivity|].
    etransitivity; [|apply insert_perm]. now constructor.
  Qed.
  Hypothesis total : forall x y, leb x y = false -> leb y x = true.
  Hypothesis trans : forall x y z, leb x y = true -> leb y z = true -> leb x z = true.
  Lemma insert_sorted x l :
    StronglySorted (fun a b => leb a b = true) l ->
    StronglySorted (fun a b => leb a b = true) (insert_by leb x l).
  Proof.
    induction 1 as [|y t S IH F]; cbn; [repeat constructor|].
    destruct (leb x y) eqn:E.
    - constructor; [now constructor|]. constructor; [assumption|].
      eapply Forall_impl; [|exact F]. intros z Hz. eauto.
    - constructor; [assumption|].
      rewrite <- (insert_perm x t). constructor; [auto|assumption].
  Qed.
  Lemma sort_sorted l : StronglySorted (fun a b => leb a b = true) (sort_by leb l).
  Proof. induction l; cbn; [constructor|]. now apply insert_sorted. Qed.
End SortFacts.

Lemma sorted_unique {A} (k : A -> Z) l l' :
  StronglySorted (fun a b => k a < k b) l ->
  StronglySorted (fun a b => (k a <=? k b) = true) l' ->
  Permutation l l' -> l = l'.
Proof.
  intros S. revert l'. induction S as [|x t S IH F]; intros l' S' P.
  - apply Permutation_nil in P. now subst.
  - destruct l' as [|y t']; [symmetry in P; now apply Permutation_nil in P|].
    inversion S' as [|? ? S'' F']; subst.
    assert (x = y) as <-.
    { assert (Hy : In y (x :: t)) by (rewrite P; now left).
      assert (Hx : In x (y :: t')) by (rewrite <- P; now left).
      destruct Hx as [|Hx]; [auto|]. destruct Hy as [|Hy]; [auto|].
      rewrite Forall_forall in F, F'. specialize (F _ Hy). specialize (F' _ Hx). lia. }
    f_equal. apply IH; [assumption|]. now apply Permutation_cons_inv in P.
Qed.

Lemma firsts_ge seen i V x : In x (firsts_from seen i V) -> i <= snd x.
Proof.
  revert seen i; induction V as [|c t IH]; cbn; [easy|]. intros seen i.
  destruct (existsb _ _).
  - intros H. apply IH in H. lia.
  - intros [<-|H]; [cbn; lia|]. apply IH in H. lia.
Qed.
Lemma firsts_sorted seen i V :
  StronglySorted (fun a b => snd a < snd b) (firsts_from seen i V).
Proof.
  revert seen i; induction V as [|c t IH]; cbn; [constructor|]. intros seen i.
  destruct (existsb _ _); [apply IH|]. constructor; [apply IH|].
  rewrite Forall_forall. intros x H. apply firsts_ge in H. cbn. lia.
Qed.

(** The columns kept: one pass with the columns seen so far. *)
Fixpoint keep (seen V : list (list bool)) : list (list bool) :=
  match V with
  | [] => []
  | c :: t =>
      if any c then
        if existsb (col_eqb c) seen then keep seen t else c :: keep (c :: seen) t
      else keep seen t
  end.
Lemma firsts_keep seen i V :
  map fst (firsts_from seen i (filter (existsb (fun b => b)) V)) = keep seen V.
Proof.
  revert seen i; induction V as [|c t IH]; cbn; [reflexivity|]. intros seen i.
  unfold any. destruct (existsb (fun b => b) c); cbn; [|apply IH].
  destruct (existsb _ seen); cbn; [apply IH|]. f_equal. apply IH.
Qed.
Lemma remove_keep V : remove_empty_and_duplicate_intervals V = keep [] V.
Proof.
  unfold remove_empty_and_duplicate_intervals, np_unique_columns.
  rewrite <- (firsts_keep [] 0). f_equal. symmetry. apply (sorted_unique snd).
  - apply firsts_sorted.
  - apply (sort_sorted (fun a b : list bool * Z => snd a <=? snd b)); intros; lia.
  - etransitivity; apply sort_perm.
Qed.

Lemma SS_shift sel : StronglySorted Z.lt sel -> StronglySorted Z.lt (map (Z.add 1) sel).
Proof.
  induction 1 as [|x t S IH F]; cbn [map]; [constructor|]. constructor; [assumption|].
  rewrite Forall_map. eapply Forall_impl; [|exact F]. intros; lia.
Qed.
Lemma Znth_S {A} (c : A) t i : 0 <= i -> Znth (c :: t) (1 + i) = Znth t i.
Proof.
  intros. unfold Znth. replace (1 + i <? 0) with false by lia. replace (i <? 0) with false by lia.
  replace (Z.to_nat (1 + i)) with (S (Z.to_nat i)) by lia. reflexivity.
Qed.
Lemma Znth_pos {A} (t : list A) i c : Znth t i = Some c -> 0 <= i.
Proof. unfold Znth. destruct (i <? 0) eqn:E; [discriminate|lia]. Qed.
Lemma F2_shift (c : list bool) t sel out :
  Forall2 (fun i x => Znth t i = Some x) sel out ->
  Forall2 (fun i x => Znth (c :: t) i = Some x) (map (Z.add 1) sel) out.
Proof.
  induction 1; constructor; [|assumption]. rewrite Znth_S; [assumption|eapply Znth_pos; eassumption].
Qed.

Lemma keep_spec seen V :
  exists sel, StronglySorted Z.lt sel /\
    Forall2 (fun i c => Znth V i = Some c) sel (keep seen V) /\
    forall i, In i sel <->
      exists c, Znth V i = Some c /\ In true c /\ ~ In c seen /\
        forall j, 0 <= j < i -> Znth V j <> Some c.
Proof.
  revert seen; induction V as [|c t IH]; intros seen.
  - exists []. split; [constructor|]. split; [constructor|]. intros i. split; [easy|].
    intros [x [H _]]. unfold Znth in H. destruct (i <? 0); [easy|]. now destruct (Z.to_nat i).
  - assert (Skip : (~ In true c \/ In c seen) -> keep seen (c :: t) = keep seen t ->
      exists sel, StronglySorted Z.lt sel /\
        Forall2 (fun i x => Znth (c :: t) i = Some x) sel (keep seen (c :: t)) /\
        forall i, In i sel <->
          exists x, Znth (c :: t) i = Some x /\ In true x /\ ~ In x seen /\
            forall j, 0 <= j < i -> Znth (c :: t) j <> Some x).
    { intros Hc E. destruct (IH seen) as [sel [S [F C]]]. exists (map (Z.add 1) sel).
      split; [now apply SS_shift|]. rewrite E. split; [now apply F2_shift|].
      intros i. rewrite in_map_iff. split.
      - intros [i0 [<- H]]. apply C in H as [x [H1 [H2 [H3 H4]]]]. exists x.
        pose proof (Znth_pos _ _ _ H1).
        rewrite Znth_S by assumption. repeat split; try assumption.
        intros j Hj. destruct (Z.eq_dec j 0) as [->|].
        + change (Some c <> Some x). intros [= ->]. tauto.
        + replace j with (1 + (j - 1)) by lia. rewrite Znth_S by lia. apply H4. lia.
      - intros [x [H1 [H2 [H3 H4]]]]. pose proof (Znth_pos _ _ _ H1).
        destruct (Z.eq_dec i 0) as [->|].
        + change (Some c = Some x) in H1. injection H1 as ->. tauto.
        + exists (i - 1). split; [lia|]. apply C. exists x.
          replace i with (1 + (i - 1)) in H1 by lia. rewrite Znth_S in H1 by lia.
          repeat split; try assumption. intros j Hj.
          specialize (H4 (1 + j)). rewrite Znth_S in H4 by lia. apply H4. lia. }
    cbn [keep] in *. destruct (any c) eqn:Ac.
    2:{ apply Skip; [|reflexivity]. left. now apply any_false. }
    destruct (existsb (col_eqb c) seen) eqn:Sc.
    { apply Skip; [|reflexivity]. right. now apply existsb_col. }
    apply any_true in Ac. apply existsb_col_false in Sc. clear Skip.
    destruct (IH (c :: seen)) as [sel [S [F C]]]. exists (0 :: map (Z.add 1) sel).
    split; [|split].
    + constructor; [now apply SS_shift|]. rewrite Forall_map, Forall_forall.
      intros i Hi. apply C in Hi as [x [H1 _]]. apply Znth_pos in H1. lia.
    + constructor; [reflexivity|]. now apply F2_shift.
    + intros i. cbn [In]. rewrite in_map_iff. split.
      * intros [<-|[i0 [<- H]]].
        -- exists c. repeat split; try assumption. intros; lia.
        -- apply C in H as [x [H1 [H2 [H3 H4]]]]. exists x.
           pose proof (Znth_pos _ _ _ H1).
           rewrite Znth_S by assumption. repeat split; try assumption; [intro; apply H3; now right|].
           intros j Hj. destruct (Z.eq_dec j 0) as [->|].
           ++ change (Some c <> Some x). intros [= ->]. apply H3. now left.
           ++ replace j with (1 + (j - 1)) by lia. rewrite Znth_S by lia. apply H4. lia.
      * intros [x [H1 [H2 [H3 H4]]]]. pose proof (Znth_pos _ _ _ H1).
        destruct (Z.eq_dec i 0) as [->|]; [now left|right].
        exists (i - 1). split; [lia|]. apply C. exists x.
        assert (x <> c). { intros ->. apply (H4 0); [lia|reflexivity]. }
        replace i with (1 + (i - 1)) in H1 by lia. rewrite Znth_S in H1 by lia.
        repeat split; try assumption; [intros [|]; congruence|]. intros j Hj.
        specialize (H4 (1 + j)). rewrite Znth_S in H4 by lia. apply H4. lia.
Qed.
Lemma remove_kept V : kept_columns V (remove_empty_and_duplicate_intervals V).
Proof.
  rewrite remove_keep. destruct (keep_spec [] V) as [sel [S [F C]]].
  exists sel. split; [assumption|]. split; [assumption|]. intros i. rewrite C.
  split; intros [c H]; exists c; cbn in *; tauto.
Qed.

Lemma first_occ (V : list (list bool)) c :
  In c V -> exists i, Znth V i = Some c /\ forall j, 0 <= j < i -> Znth V j <> Some c.
Proof.
  induction V as [|x t IH]; [easy|]. intros H.
  destruct (list_eq_dec Bool.bool_dec x c) as [->|N].
  - exists 0. split; [reflexivity|lia].
  - destruct H as [|H]; [easy|]. destruct (IH H) as [i [H1 H2]]. exists (1 + i).
    pose proof (Znth_pos _ _ _ H1).
    rewrite Znth_S by assumption. split; [assumption|]. intros j Hj.
    destruct (Z.eq_dec j 0) as [->|].
    + change (Some x <> Some c). congruence.
    + replace j with (1 + (j - 1)) by lia. rewrite Znth_S by lia. apply H2. lia.
Qed.
Lemma Znth_In_ {A} (l : list A) i x : Znth l i = Some x -> In x l.
Proof. unfold Znth. destruct (i <? 0); [easy|]. apply nth_error_In. Qed.
Lemma kept_In V K c : kept_columns V K -> (In c K <-> In c V /\ In true c).
Proof.
  intros [sel [S [F C]]]. split.
  - intros H. apply In_nth_error in H as [n H].
    assert (G : forall sel K, Forall2 (fun i c => Znth V i = Some c) sel K -> forall n c, nth_error K n = Some c ->
              exists i, In i sel /\ Znth V i = Some c).
    { clear. induction 1; intros [|n] c; cbn; try easy.
      - intros [= <-]. eexists. split; [now left|eassumption].
      - intros H1. destruct (IHForall2 _ _ H1) as [i [? ?]]. exists i. split; [now right|assumption]. }
    destruct (G _ _ F _ _ H) as [i [Hi Hc]]. apply C in Hi as [x [H1 [H2 _]]].
    rewrite Hc in H1. injection H1 as ->. split; [eapply Znth_In_; eassumption|assumption].
  - intros [H T]. destruct (first_occ _ _ H) as [i [H1 H2]].
    assert (Hi : In i sel) by (apply C; exists c; auto).
    clear C S. induction F as [|j x sel K E F IH]; [easy|].
    destruct Hi as [->|Hi]; [|right; auto]. rewrite H1 in E. injection E as ->. now left.
Qed.
Lemma kept_covers V K p : kept_columns V K -> in_some_column V p -> in_some_column K p.
Proof.
  intros HK [c [H T]]. exists c. split; [|assumption]. apply (kept_In _ _ _ HK).
  split; [assumption|]. eapply Znth_In_; eassumption.
Qed.

(** Rewriting: empty columns and repetitions may be dropped anywhere. *)
Inductive red : list (list bool) -> list (list bool) -> Prop :=
| red_empty A e B : ~ In true e -> red (A ++ e :: B) (A ++ B)
| red_dup A c B : In c A -> red (A ++ c :: B) (A ++ B).
Notation reds := (clos_refl_trans _ red).

Lemma keep_seen seen seen' V :
  (forall c, In c seen <-> In c seen') -> keep seen V = keep seen' V.
Proof.
  revert seen seen'; induction V as [|c t IH]; intros seen seen' H; cbn; [reflexivity|].
  replace (existsb (col_eqb c) seen') with (existsb (col_eqb c) seen).
  - destruct (any c), (existsb (col_eqb c) seen); auto. f_equal. apply IH.
    intros x. cbn. now rewrite H.
  - apply eq_true_iff_eq. rewrite !existsb_col. apply H.
Qed.
Lemma red_keep V V' : red V V' -> forall seen, keep seen V = keep seen V'.
Proof.
  intros [A e B He|A c B Hc]; intros seen.
  - apply any_false in He. revert seen; induction A as [|x A IH]; intros seen; cbn.
    + now rewrite He.
    + now rewrite !IH.
  - revert seen Hc.
    assert (G : forall A seen, In c A \/ In c seen -> keep seen (A ++ c :: B) = keep seen (A ++ B)).
    { clear A. induction A as [|x A IH]; intros seen H; cbn.
      - destruct H as [[]|H]. apply existsb_col in H. rewrite H. now destruct (any c).
      - destruct (any x) eqn:Ax.
        + destruct (existsb (col_eqb x) seen) eqn:E.
          * apply IH. destruct H as [[->|H]|H]; auto. right. now apply existsb_col.
          * f_equal. apply IH. cbn in H |- *. tauto.
        + apply any_false in Ax. destruct H as [[->|H]|H].
          * (* c itself is empty *)
            apply any_false in Ax. clear IH. revert seen; induction A as [|y A IH]; intros seen; cbn; [now rewrite Ax|].
            now rewrite !IH.
          * apply IH. now left.
          * apply IH. now right. }
    intros seen Hc. apply G. now left.
Qed.
Lemma reds_keep V V' : reds V V' -> forall seen, keep seen V = keep seen V'.
Proof. induction 1; intros; [now apply red_keep|reflexivity|]. etransitivity; eauto. Qed.
Lemma reds_nf A V : reds (A ++ V) (A ++ keep A V).
Proof.
  revert A; induction V as [|c t IH]; intros A; cbn; [apply rt_refl|].
  destruct (any c) eqn:Ac.
  - destruct (existsb (col_eqb c) A) eqn:E.
    + eapply rt_trans; [apply rt_step, red_dup; now apply existsb_col|]. apply IH.
    + replace (A ++ c :: t) with ((A ++ [c]) ++ t) by now rewrite <- app_assoc.
      replace (A ++ c :: keep (c :: A) t) with ((A ++ [c]) ++ keep (A ++ [c]) t).
      * apply IH.
      * rewrite <- app_assoc. cbn. do 2 f_equal. apply keep_seen.
        intros x. rewrite in_app_iff. cbn. tauto.
  - eapply rt_trans; [apply rt_step, red_empty; now apply any_false|]. apply IH.
Qed.

(** The product of two families of columns. *)
Definition tensor (V W : list (list bool)) : list (list bool) :=
  flat_map (fun x => map (zip_and x) W) V.
Lemma tensor_app V V' W : tensor (V ++ V') W = tensor V W ++ tensor V' W.
Proof. apply flat_map_app. Qed.
Lemma zip_and_l e x : ~ In true e -> ~ In true (zip_and e x).
Proof.
  revert x; induction e as [|b e IH]; destruct x as [|y x]; cbn; try tauto.
  intros H [E|E]; [|apply (IH x); tauto]. apply andb_true_iff in E. tauto.
Qed.
Lemma zip_and_comm a b : zip_and a b = zip_and b a.
Proof. revert b; induction a; destruct b; cbn; f_equal; auto using andb_comm. Qed.
Lemma zip_and_r e x : ~ In true e -> ~ In true (zip_and x e).
Proof. rewrite zip_and_comm. apply zip_and_l. Qed.
Lemma reds_empties A E B : Forall (fun e => ~ In true e) E -> reds (A ++ E ++ B) (A ++ B).
Proof.
  induction 1 as [|e E He _ IH]; cbn; [apply rt_refl|].
  eapply rt_trans; [apply rt_step; apply (red_empty A e (E ++ B)); assumption|assumption].
Qed.
Lemma reds_dups A E B : Forall (fun e => In e A) E -> reds (A ++ E ++ B) (A ++ B).
Proof.
  induction 1 as [|e E He _ IH]; cbn; [apply rt_refl|].
  eapply rt_trans; [apply rt_step; apply (red_dup A e (E ++ B)); assumption|assumption].
Qed.
Lemma red_app P V V' S : red V V' -> red (P ++ V ++ S) (P ++ V' ++ S).
Proof.
  intros [A e B H|A c B H].
  - rewrite <- !app_assoc. cbn. rewrite !(app_assoc P A). now apply red_empty.
  - rewrite <- !app_assoc. cbn. rewrite !(app_assoc P A). apply red_dup.
    rewrite in_app_iff. now right.
Qed.
Lemma reds_app P V V' S : reds V V' -> reds (P ++ V ++ S) (P ++ V' ++ S).
Proof. induction 1; [apply rt_step; now apply red_app|apply rt_refl|]. eapply rt_trans; eauto. Qed.
Lemma red_tensor_l V V' W : red V V' -> reds (tensor V W) (tensor V' W).
Proof.
  intros [A e B H|A c B H]; rewrite !tensor_app.
  - change (tensor (e :: B) W) with (map (zip_and e) W ++ tensor B W). apply reds_empties.
    rewrite Forall_map, Forall_forall. intros x _. now apply zip_and_l.
  - change (tensor (c :: B) W) with (map (zip_and c) W ++ tensor B W). apply reds_dups.
    rewrite Forall_forall. intros x Hx. unfold tensor. rewrite in_flat_map. now exists c.
Qed.
Lemma red_map x W W' : red W W' -> red (map (zip_and x) W) (map (zip_and x) W').
Proof.
  intros [A e B H|A c B H]; rewrite !map_app; cbn.
  - apply red_empty. now apply zip_and_r.
  - apply red_dup. now apply in_map.
Qed.
Lemma red_tensor_r V W W' : red W W' -> reds (tensor V W) (tensor V W').
Proof.
  intros H. induction V as [|x V IH]; cbn; [apply rt_refl|].
  eapply rt_trans.
  - apply (reds_app [] _ (map (zip_and x) W')). apply rt_step. now apply red_map.
  - pose proof (reds_app (map (zip_and x) W') _ _ [] IH) as R. rewrite !app_nil_r in R. exact R.
Qed.
Lemma reds_tensor V V' W W' : reds V V' -> reds W W' -> reds (tensor V W) (tensor V' W').
Proof.
  intros HV HW. apply rt_trans with (tensor V' W).
  - induction HV; [now apply red_tensor_l|apply rt_refl|]. eapply rt_trans; eauto.
  - induction HW; [now apply red_tensor_r|apply rt_refl|]. eapply rt_trans; eauto.
Qed.
Lemma keep_tensor V V' W W' :
  keep [] V = keep [] V' -> keep [] W = keep [] W' ->
  keep [] (tensor V W) = keep [] (tensor V' W').
Proof.
  intros HV HW.
  pose proof (reds_keep _ _ (reds_tensor _ _ _ _ (reds_nf [] V) (reds_nf [] W)) []) as E.
  pose proof (reds_keep _ _ (reds_tensor _ _ _ _ (reds_nf [] V') (reds_nf [] W')) []) as E'.
  cbn [app] in E, E'. now rewrite E, E', HV, HW.
Qed.

(** Leading columns that are replaced by repetitions of the first non-empty
    one. *)
Inductive lead (c : list bool) : list (list bool) -> list (list bool) -> Prop :=
| lead_here t : In true c -> lead c (c :: t) (c :: t)
| lead_empty e V V' : ~ In true e -> lead c V V' -> lead c (e :: V) (e :: V')
| lead_step e V V' : ~ In true e -> lead c V V' -> lead c (c :: V) (e :: V').
Lemma lead_in c V V' : lead c V V' -> In true c.
Proof. induction 1; assumption. Qed.
Lemma lead_keep1 c V V' : lead c V V' -> forall seen, ~ In c seen -> keep seen V = c :: keep (c :: seen) V.
Proof.
  intros L. pose proof (lead_in _ _ _ L) as T.
  induction L as [t|e V V' He L IH|e V V' He L IH]; intros seen N; cbn.
  - apply any_true in T. rewrite T. cbn.
    replace (col_eqb c c) with true by (symmetry; now apply col_eqb_eq). cbn.
    replace (existsb (col_eqb c) seen) with false by (symmetry; now apply existsb_col_false). reflexivity.
  - apply any_false in He. rewrite He. now apply IH.
  - apply any_true in T. rewrite T. cbn.
    replace (col_eqb c c) with true by (symmetry; now apply col_eqb_eq). cbn.
    replace (existsb (col_eqb c) seen) with false by (symmetry; now apply existsb_col_false). reflexivity.
Qed.
Lemma lead_keep c V V' : lead c V V' -> forall seen, ~ In c seen -> keep seen V = keep seen V'.
Proof.
  intros L. induction L as [t H|e V V' He L IH|e V V' He L IH]; intros seen N; cbn; [reflexivity| |].
  - apply any_false in He. rewrite He. now apply IH.
  - pose proof (lead_in _ _ _ L) as T. apply any_true in T. rewrite T.
    replace (existsb (col_eqb c) seen) with false by (symmetry; now apply existsb_col_false).
    apply any_false in He. rewrite He. rewrite <- IH by assumption. symmetry. now apply (lead_keep1 _ V V').
Qed.
