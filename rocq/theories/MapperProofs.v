(** Proofs about ParallelClustering. *)
From Coq Require Import Sorted Permutation.
From Verif Require Import Np NpFacts CoverProofs MapperModel MapperSpec.
Open Scope Z_scope.

(** ** flatnonzero *)
Lemma flatnonzero_from_In c : forall i p, In p (flatnonzero_from i c) <-> i <= p /\ Znth c (p - i) = Some true.
Proof.
  induction c as [|b t IH]; intros i p; cbn [flatnonzero_from].
  - split; [intros []|]. intros [H E]. rewrite Znth_None in E; [discriminate|].
    change (zlen (@nil bool)) with 0. lia.
  - assert (S : In p (flatnonzero_from (i + 1) t) <-> i < p /\ Znth (b :: t) (p - i) = Some true).
    { rewrite IH. destruct (Z.lt_ge_cases i p).
      - rewrite (Znth_cons b t (p - i)) by lia. replace (p - i - 1) with (p - (i + 1)) by lia. split; intros [? ?]; split; auto; lia.
      - split; intros [? ?]; lia. }
    destruct b; cbn [In]; rewrite S.
    + split.
      * intros [<-|[H E]]; [|split; [lia|auto]]. rewrite Z.sub_diag, Znth_0. split; [lia|reflexivity].
      * intros [H E]. destruct (Z.eq_dec i p); [now left|]. right. split; [lia|auto].
    + split; intros [H E].
      * split; [lia|auto].
      * split; [|auto]. destruct (Z.eq_dec i p) as [->|]; [|lia]. rewrite Z.sub_diag, Znth_0 in E. discriminate.
Qed.
Lemma flatnonzero_from_sorted c : forall i, StronglySorted Z.lt (flatnonzero_from i c).
Proof.
  induction c as [|b t IH]; intros i; cbn; [constructor|]. destruct b; [|apply IH].
  constructor; [apply IH|]. apply Forall_forall. intros p Hp. apply flatnonzero_from_In in Hp. lia.
Qed.
Lemma flatnonzero_members c : members c (flatnonzero c).
Proof.
  split; [apply flatnonzero_from_sorted|]. intros p. unfold flatnonzero. rewrite flatnonzero_from_In, Z.sub_0_r.
  split; [now intros [? ?]|]. intros E. split; [now apply Znth_Some_lt in E|auto].
Qed.
Lemma sorted_lt_unique l l' : StronglySorted Z.lt l -> StronglySorted Z.lt l' -> (forall x, In x l <-> In x l') -> l = l'.
Proof.
  revert l'. induction l as [|a l IH]; intros [|b l'] H H' E.
  - reflexivity.
  - destruct (proj2 (E b)). now left.
  - destruct (proj1 (E a)). now left.
  - apply StronglySorted_inv in H as [H HF]. apply StronglySorted_inv in H' as [H' HF'].
    rewrite Forall_forall in HF, HF'.
    assert (a = b).
    { destruct (proj1 (E a) (or_introl eq_refl)) as [->|I]; [reflexivity|].
      destruct (proj2 (E b) (or_introl eq_refl)) as [->|I']; [reflexivity|]. specialize (HF _ I'). specialize (HF' _ I). lia. }
    subst b. f_equal. apply IH; auto. intros x. split; intros I.
    + destruct (proj1 (E x) (or_intror I)) as [->|]; auto. specialize (HF _ I). lia.
    + destruct (proj2 (E x) (or_intror I)) as [->|]; auto. specialize (HF' _ I). lia.
Qed.
Lemma members_unique c rel : members c rel -> rel = flatnonzero c.
Proof.
  intros [S M]. destruct (flatnonzero_members c) as [S' M']. apply sorted_lt_unique; auto.
  intros x. now rewrite M, M'.
Qed.
Lemma sorted_lt_NoDup l : StronglySorted Z.lt l -> NoDup l.
Proof.
  induction 1 as [|a l S IH F]; constructor; auto. intros I. rewrite Forall_forall in F. specialize (F _ I). lia.
Qed.

(** ** gather *)
Lemma gather_picks {A} (X : list A) rel Y : picks X rel Y -> gather X rel = Ok Y.
Proof.
  unfold gather. induction 1 as [|p x rel Y E F IH]; [reflexivity|]. cbn.
  rewrite (py_get_in X p x) by (auto; now apply Znth_Some_lt in E). cbn. now rewrite IH.
Qed.
Lemma picks_det {A} (X : list A) rel Y Y' : picks X rel Y -> picks X rel Y' -> Y = Y'.
Proof. intros H H'. apply gather_picks in H, H'. congruence. Qed.
Lemma picks_ex {A} (X : list A) rel : (forall p, In p rel -> 0 <= p < zlen X) -> exists Y, picks X rel Y.
Proof.
  induction rel as [|p rel IH]; intros H.
  - exists []. constructor.
  - destruct IH as [Y HY]; [intros; apply H; now right|]. destruct (Znth_ex X p) as [x E]; [apply H; now left|].
    exists (x :: Y). now constructor.
Qed.
Lemma gather_inv {A} (X : list A) rel Y : (forall p, In p rel -> 0 <= p) -> gather X rel = Ok Y -> picks X rel Y.
Proof.
  unfold gather. intros P E. apply mapM_Ok_inv in E. unfold picks.
  revert P. induction E as [|p y rel Y H F IH]; intros P; constructor; [|apply IH; intros; apply P; now right].
  specialize (P p (or_introl eq_refl)). unfold py_get in H.
  destruct (p <? 0) eqn:L; [apply Z.ltb_lt in L; lia|]. destruct (Znth X p); [congruence|discriminate].
Qed.
Lemma select_portion {A} pre (X : list (list A)) rel Y : portion pre X rel Y ->
  (if pre then @select_block A else select_rows) X rel = Ok Y.
Proof.
  unfold portion. destruct pre.
  - intros [rows [P F]]. unfold select_block. rewrite (gather_picks _ _ _ P). cbn. clear P.
    induction F as [|r y rows Y H F IH]; [reflexivity|]. cbn. rewrite (gather_picks _ _ _ H). cbn. now rewrite IH.
  - apply gather_picks.
Qed.
Lemma select_inv {A} (pre : bool) (X : list (list A)) rel Y : (forall p, In p rel -> 0 <= p) ->
  (if pre then @select_block A else select_rows) X rel = Ok Y -> portion pre X rel Y.
Proof.
  intros P. unfold portion. destruct pre.
  - unfold select_block. destruct (gather X rel) as [rows|] eqn:E; [|discriminate]. cbn. intros E'.
    exists rows. split; [now apply gather_inv|]. apply mapM_Ok_inv in E'.
    clear E. induction E' as [|r y rows Y H F IH]; constructor; auto. now apply gather_inv.
  - now apply gather_inv.
Qed.

(** ** Scheduling *)
Lemma run_tasks_ok {B} (task : Z -> res B) (r : Z -> B) : forall sched slots,
  (forall k, In k sched -> task k = Ok (r k)) ->
  exists slots', run_tasks sched task slots = Ok slots' /\ zlen slots' = zlen slots /\
    forall j, 0 <= j < zlen slots ->
      Znth slots' j = if in_dec Z.eq_dec j sched then Some (Some (r j)) else Znth slots j.
Proof.
  induction sched as [|k t IH]; intros slots H.
  - exists slots. repeat split.
  - cbn [run_tasks]. rewrite H by now left. cbn [bind].
    destruct (IH (set_at slots k (Some (r k)))) as [s [E [L N]]]; [intros; apply H; now right|].
    rewrite zlen_set_at in L, N. exists s. repeat split; auto. intros j Hj. rewrite N by assumption.
    destruct (in_dec Z.eq_dec j t) as [I|I]; destruct (in_dec Z.eq_dec j (k :: t)) as [I'|I']; auto.
    + destruct I'. now right.
    + destruct I' as [<-|I']; [|now destruct I]. rewrite Znth_set_at, Z.eqb_refl.
      destruct (Znth_ex slots k Hj) as [x ->]. reflexivity.
    + rewrite Znth_set_at. destruct (Z.eqb_spec j k) as [->|]; auto. destruct I'. now left.
Qed.
Lemma run_tasks_inv {B} (task : Z -> res B) : forall sched slots slots',
  run_tasks sched task slots = Ok slots' -> forall k, In k sched -> exists r, task k = Ok r.
Proof.
  induction sched as [|k t IH]; intros slots slots' E j [].
  - subst j. cbn in E. destruct (task k); [eauto|discriminate].
  - cbn in E. destruct (task k); [|discriminate]. cbn in E. eapply IH; eauto.
Qed.
Lemma zlen_repeat {A} (x : A) n : 0 <= n -> zlen (repeat x (Z.to_nat n)) = n.
Proof. intros. unfold zlen. rewrite repeat_length. lia. Qed.
Lemma Znth_repeat {A} (x : A) n i : 0 <= i < n -> Znth (repeat x (Z.to_nat n)) i = Some x.
Proof.
  intros H. destruct (Znth_ex (repeat x (Z.to_nat n)) i) as [y E]; [rewrite zlen_repeat; lia|].
  rewrite E. f_equal. apply Znth_In in E. now apply repeat_spec in E.
Qed.
Lemma parallel_calls_ok {B} (task : Z -> res B) (r : Z -> B) sched n : 0 <= n ->
  Permutation sched (arange n) -> (forall k, 0 <= k < n -> task k = Ok (r k)) ->
  parallel_calls sched n task = Ok (tabZ n r).
Proof.
  intros Hn P H. unfold parallel_calls.
  assert (I : forall k, In k sched <-> 0 <= k < n).
  { intros k. rewrite <- In_arange. split; apply Permutation_in; [auto|now apply Permutation_sym]. }
  destruct (run_tasks_ok task r sched (repeat None (Z.to_nat n))) as [s [-> [L N]]].
  { intros k Hk. apply H. now apply I. }
  cbn. rewrite zlen_repeat in L, N by assumption. unfold collect.
  replace s with (tabZ n (fun k => Some (r k))).
  - rewrite tabZ_arange, mapM_map. rewrite (mapM_Ok _ r). { now rewrite tabZ_arange. } reflexivity.
  - apply Znth_ext. { rewrite L. now rewrite zlen_tabZ. }
    intros i Hi. rewrite zlen_tabZ in Hi by assumption. rewrite N, Znth_tabZ by assumption.
    destruct (in_dec Z.eq_dec i sched); [reflexivity|]. now destruct n0; apply I.
Qed.
Lemma parallel_calls_inv {B} (task : Z -> res B) sched n rs : 
  Permutation sched (arange n) -> parallel_calls sched n task = Ok rs ->
  forall k, 0 <= k < n -> exists r, task k = Ok r.
Proof.
  intros P E k Hk. unfold parallel_calls in E. destruct (run_tasks sched task _) as [s|] eqn:E'; [|discriminate].
  eapply run_tasks_inv; [eassumption|]. apply Permutation_sym in P. eapply Permutation_in; [exact P|]. now apply In_arange.
Qed.
Lemma parallel_calls_same {B} (task : Z -> res B) s1 s2 n rs : 0 <= n ->
  Permutation s1 (arange n) -> Permutation s2 (arange n) ->
  parallel_calls s1 n task = Ok rs -> parallel_calls s2 n task = Ok rs.
Proof.
  intros Hn P1 P2 E. pose proof (parallel_calls_inv _ _ _ _ P1 E) as H.
  destruct (Z.eq_dec n 0) as [->|N].
  - apply Permutation_sym, Permutation_nil in P1, P2. now subst.
  - destruct (H 0 ltac:(lia)) as [d _].
    set (r := fun k => match task k with Ok x => x | Err _ => d end).
    assert (T : forall k, 0 <= k < n -> task k = Ok (r k)).
    { intros k Hk. destruct (H k Hk) as [x Ex]. unfold r. now rewrite Ex. }
    rewrite (parallel_calls_ok task r s1 n Hn P1 T) in E. rewrite <- E. now apply parallel_calls_ok.
Qed.

(** ** Assigning the labels *)
Lemma add_labels_len i : forall rel ls labels, zlen (add_labels i rel ls labels) = zlen labels.
Proof.
  induction rel as [|p rel IH]; intros [|l ls] labels; cbn; auto. now rewrite IH, zlen_mapi.
Qed.
Lemma add_labels_spec i : forall rel ls labels, zlen ls = zlen rel -> NoDup rel ->
  forall p t, Znth labels p = Some t ->
  exists u, Znth (add_labels i rel ls labels) p = Some (t ++ u) /\
    ((u = [] /\ ~ In p rel) \/
     exists q l, u = [(i, l)] /\ Znth rel q = Some p /\ Znth ls q = Some l).
Proof.
  induction rel as [|a rel IH]; intros [|l ls] labels L D p t E.
  - exists []. rewrite app_nil_r. split; [exact E|]. left. split; [reflexivity|intros []].
  - rewrite zlen_cons in L. change (zlen (@nil Z)) with 0 in L. pose proof (zlen_nonneg ls). lia.
  - rewrite zlen_cons in L. change (zlen (@nil Z)) with 0 in L. pose proof (zlen_nonneg rel). lia.
  - rewrite !zlen_cons in L. inversion D as [|? ? NI D']; subst. cbn [add_labels].
    set (lab' := mapi (fun q t0 => if q =? a then t0 ++ [(i, l)] else t0) labels).
    assert (E' : Znth lab' p = Some (if p =? a then t ++ [(i, l)] else t)).
    { unfold lab'. rewrite Znth_mapi, E. reflexivity. }
    destruct (IH ls lab' ltac:(lia) D' p _ E') as [u [Eu C]].
    destruct (Z.eqb_spec p a) as [->|N].
    + assert (u = []) as ->. { destruct C as [[? ?]|[q [l' [? [Hq _]]]]]; auto. apply Znth_In in Hq. contradiction. }
      exists [(i, l)]. rewrite app_nil_r in Eu. split; [exact Eu|]. right. exists 0, l. now rewrite !Znth_0.
    + exists u. split; [exact Eu|]. destruct C as [[-> NI']|[q [l' [-> [Hq Hl]]]]].
      * left. split; [reflexivity|]. intros [->|I]; auto.
      * right. exists (1 + q), l'. pose proof (proj1 (Znth_Some_lt _ _ _ Hq)).
        rewrite !Znth_S by assumption. auto.
Qed.
Lemma assign_all_spec n : forall rs i labels, zlen labels = n ->
  (forall rel ls, In (rel, ls) rs -> zlen ls = zlen rel /\ NoDup rel) ->
  exists out, assign_all i rs labels = Ok out /\ zlen out = n /\
    forall p t, Znth labels p = Some t ->
    exists u, Znth out p = Some (t ++ u) /\ StronglySorted Z.lt (map fst u) /\
      forall j l, In (j, l) u <-> exists rel ls q, i <= j /\ Znth rs (j - i) = Some (rel, ls) /\
                                   Znth rel q = Some p /\ Znth ls q = Some l.
Proof.
  induction rs as [|[rel ls] rs IH]; intros i labels L H.
  - exists labels. split; [reflexivity|]. split; [assumption|]. intros p t E. exists []. rewrite app_nil_r.
    split; [assumption|]. split; [constructor|]. intros j l. split; [intros []|].
    intros [rel [ls [q [_ [E' _]]]]]. rewrite Znth_None in E'; [discriminate|]. change (zlen (@nil (list Z * list Z))) with 0. lia.
  - destruct (H rel ls (or_introl eq_refl)) as [Ll D]. cbn [assign_all]. unfold assign_labels.
    rewrite (proj2 (Z.eqb_eq _ _) Ll). cbn [bind].
    destruct (IH (i + 1) (add_labels i rel ls labels)) as [out [E [Lo N]]].
    { now rewrite add_labels_len. } { intros; apply H; now right. }
    exists out. split; [exact E|]. split; [exact Lo|]. intros p t Et.
    destruct (add_labels_spec i rel ls labels Ll D p t Et) as [u1 [E1 C]].
    destruct (N p _ E1) as [u2 [E2 [S M]]]. exists (u1 ++ u2). rewrite app_assoc. split; [exact E2|].
    assert (GE : forall j l, In (j, l) u2 -> i < j).
    { intros j l Hj. apply M in Hj as [? [? [? [? _]]]]. lia. }
    assert (M2 : forall j l, In (j, l) u2 <-> exists rel0 ls0 q, i < j /\ Znth ((rel, ls) :: rs) (j - i) = Some (rel0, ls0) /\
                                   Znth rel0 q = Some p /\ Znth ls0 q = Some l).
    { intros j l. rewrite M. split; intros [r0 [l0 [q [G [Z1 Z2]]]]]; exists r0, l0, q; (split; [lia|]); (split; [|exact Z2]).
      - rewrite Znth_cons by lia. now replace (j - i - 1) with (j - (i + 1)) by lia.
      - rewrite Znth_cons in Z1 by lia. now replace (j - (i + 1)) with (j - i - 1) by lia. }
    split.
    + destruct C as [[-> _]|[q [l [-> _]]]]; [exact S|]. cbn. constructor; [exact S|].
      apply Forall_forall. intros x Hx. apply in_map_iff in Hx as [[j l'] [<- Hx]]. cbn. eapply GE, Hx.
    + intros j l. rewrite in_app_iff, M2. split.
      * intros [I|[r0 [l0 [q [G Z1]]]]].
        -- destruct C as [[-> _]|[q [l1 [-> [Hq Hl]]]]]; [destruct I|]. destruct I as [I|[]].
           injection I as <- <-. exists rel, ls, q. rewrite Z.sub_diag, Znth_0. repeat split; auto; lia.
        -- exists r0, l0, q. split; [lia|exact Z1].
      * intros [r0 [l0 [q [G [Z1 [Z2 Z3]]]]]]. destruct (Z.eq_dec i j) as [<-|NE].
        -- left. rewrite Z.sub_diag, Znth_0 in Z1. injection Z1 as <- <-.
           destruct C as [[-> NI]|[q' [l1 [-> [Hq Hl]]]]]; [now apply Znth_In in Z2|].
           left. f_equal. assert (q = q'); [|congruence].
           clear -D Z2 Hq. unfold Znth in *. destruct (q <? 0) eqn:A; [discriminate|]. destruct (q' <? 0) eqn:B; [discriminate|].
           apply Z.ltb_ge in A, B. assert (Z.to_nat q = Z.to_nat q'); [|lia].
           eapply NoDup_nth_error; eauto. { apply nth_error_Some. congruence. } congruence.
        -- right. exists r0, l0, q. repeat split; auto. lia.
Qed.
