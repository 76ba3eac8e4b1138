(** Property C76: cutting a dendrogram, and single linkage. *)
From Coq Require Import Sorting.Permutation.
From Verif Require Import Np NpFacts Fl FlFacts KnnThms CutModel CutSpec CutThms.
Open Scope Z_scope.

Section Heap.
Variable push pushpop : list Z -> Z -> list Z.
Hypothesis Hq : heapq push pushpop.
Variable n : Z.
Variable children : list (Z * Z).
Hypothesis Tr : merge_tree n children.

Definition holds_nodes (heap : list Z -> Prop) (m : Z) (nodes : list Z) : Prop :=
  heap nodes /\ NoDup nodes /\ forall v, In (- v) nodes <-> active n children m v.

Lemma split_step (heap : list Z -> Prop) :
    (forall x h y, heap (x :: h) -> In y h -> x <= y) ->
    (forall h x, heap h -> heap (push h x) /\ Permutation (push h x) (x :: h)) ->
    (forall y h x, heap (y :: h) -> y <= x -> heap (pushpop (y :: h) x) /\ Permutation (pushpop (y :: h) x) (x :: h)) ->
  forall m nodes, 1 <= m <= n - 1 -> holds_nodes heap m nodes ->
  exists a b, py_get nodes 0 = Ok (- (n + m - 1)) /\ Znth children (m - 1) = Some (a, b) /\
    holds_nodes heap (m - 1) (pushpop (push nodes (- a)) (- b)) /\ zlen (pushpop (push nodes (- a)) (- b)) = zlen nodes + 1.
Proof.
  intros Hmin Hpush Hpop m nodes Hm [Hh [Nd Ac]]. destruct (merge_at n children Tr (m - 1)) as [a [b [E [Ba [Bb Nab]]]]]; [lia|].
  exists a, b. set (top := n + m - 1).
  assert (St : forall v, active n children m v <-> v = top \/ active n children (m - 1) v /\ v <> a /\ v <> b).
  { intros v. replace m with (m - 1 + 1) at 1 by lia. rewrite (active_step n children Tr _ _ _ E). unfold top. replace (n + (m - 1)) with (n + m - 1) by lia. reflexivity. }
  assert (Up : forall z, In z nodes -> - top <= z).
  { intros z I. replace z with (- - z) in I by lia. apply Ac in I. destruct I as [R _]. unfold top. lia. }
  assert (It : In (- top) nodes) by (apply Ac, St; now left).
  assert (H0 : exists rest, nodes = - top :: rest).
  { destruct nodes as [|y rest]; [destruct It|]. exists rest. f_equal. specialize (Up y (or_introl eq_refl)).
    destruct It as [->|I]; [reflexivity|]. specialize (Hmin y rest _ Hh I). lia. }
  destruct H0 as [rest Er]. split; [rewrite Er; now apply py_get_in; [lia|apply Znth_0]|]. split; [exact E|].
  destruct (Hpush nodes (- a) Hh) as [Hh1 P1].
  assert (H1 : exists h, push nodes (- a) = - top :: h).
  { destruct (push nodes (- a)) as [|y h] eqn:Ey; [apply Permutation_nil in P1; discriminate|]. exists h. f_equal.
    assert (Iy : In y (- a :: nodes)) by (apply (Permutation_in _ P1); now left).
    assert (- top <= y) by (destruct Iy as [<-|Iy]; [unfold top; lia|now apply Up]).
    assert (I2 : In (- top) (y :: h)) by (apply (Permutation_in _ (Permutation_sym P1)); now right).
    destruct I2 as [->|I2]; [reflexivity|]. specialize (Hmin y h _ Hh1 I2). lia. }
  destruct H1 as [h Eh]. rewrite Eh in *. destruct (Hpop (- top) h (- b) Hh1 ltac:(unfold top; lia)) as [Hh2 P2].
  assert (P3 : Permutation h (- a :: rest)).
  { rewrite Er in P1. apply (Permutation_cons_inv (a := - top)). rewrite P1. apply perm_swap. }
  assert (P4 : Permutation (pushpop (- top :: h) (- b)) (- b :: - a :: rest)) by (rewrite P2; now apply perm_skip).
  rewrite Er in Nd. apply NoDup_cons_iff in Nd. destruct Nd as [Nt Nd].
  assert (Rest : forall v, In (- v) rest <-> active n children (m - 1) v /\ v <> a /\ v <> b).
  { intros v. specialize (Ac v). rewrite Er in Ac. rewrite St in Ac. cbn in Ac. split.
    - intros I. destruct (proj1 Ac (or_intror I)) as [->|A]; [tauto|exact A].
    - intros A. destruct (proj2 Ac (or_intror A)) as [V|I]; [|exact I]. destruct A as [[R _] _]. unfold top in V. lia. }
  destruct (active_children n children Tr _ _ _ E) as [Aa Ab].
  split; [split; [exact Hh2|split]|].
  - apply (Permutation_NoDup (Permutation_sym P4)). constructor; [|constructor; [|exact Nd]].
    + intros [V|I]; [lia|]. apply Rest in I. tauto.
    + intros I. apply Rest in I. tauto.
  - intros v. split.
    + intros I. apply (Permutation_in _ P4) in I. destruct I as [V|[V|I]]; [replace v with b by lia; exact Ab|replace v with a by lia; exact Aa|].
      now apply Rest in I.
    + intros A. apply (Permutation_in _ (Permutation_sym P4)). destruct (Z.eq_dec v b) as [->|]; [now left|].
      destruct (Z.eq_dec v a) as [->|]; [right; now left|]. right. right. apply Rest. tauto.
  - unfold zlen. rewrite (Permutation_length P4), Er. cbn [length]. lia.
Qed.
Lemma split_nodes_ok (heap : list Z -> Prop) :
    (forall x h y, heap (x :: h) -> In y h -> x <= y) ->
    (forall h x, heap h -> heap (push h x) /\ Permutation (push h x) (x :: h)) ->
    (forall y h x, heap (y :: h) -> y <= x -> heap (pushpop (y :: h) x) /\ Permutation (pushpop (y :: h) x) (x :: h)) ->
  forall times m nodes, 0 <= m - Z.of_nat times -> m <= n - 1 -> holds_nodes heap m nodes ->
  exists out, split_nodes push pushpop times children n nodes = Ok out /\ holds_nodes heap (m - Z.of_nat times) out /\ zlen out = zlen nodes + Z.of_nat times.
Proof.
  intros Hmin Hpush Hpop. induction times as [|times IH]; intros m nodes H0 H1 Hn.
  - exists nodes. cbn [split_nodes]. rewrite Z.sub_0_r, Z.add_0_r. auto.
  - destruct (split_step heap Hmin Hpush Hpop m nodes ltac:(lia) Hn) as [a [b [E0 [E1 [H2 L]]]]].
    cbn [split_nodes]. rewrite E0. cbn [bind]. replace (- - (n + m - 1) - n) with (m - 1) by lia.
    rewrite (py_get_in children (m - 1) (a, b) ltac:(lia) E1). cbn [bind fst snd].
    destruct (IH (m - 1) (pushpop (push nodes (- a)) (- b)) ltac:(lia) ltac:(lia) H2) as [out [Eo [Ho Lo]]].
    exists out. rewrite Nat2Z.inj_succ. replace (m - Z.succ (Z.of_nat times)) with (m - 1 - Z.of_nat times) by lia.
    split; [exact Eo|]. split; [exact Ho|]. lia.
Qed.
Lemma nodup_Znth {A} (l : list A) i j x : NoDup l -> Znth l i = Some x -> Znth l j = Some x -> i = j.
Proof.
  intros N Ei Ej. pose proof (Znth_Some_lt _ _ _ Ei) as Ri. pose proof (Znth_Some_lt _ _ _ Ej) as Rj.
  unfold Znth in *. destruct (Z.ltb_spec i 0); [lia|]. destruct (Z.ltb_spec j 0); [lia|].
  enough (Z.to_nat i = Z.to_nat j) by lia. apply (proj1 (NoDup_nth_error l) N); [|congruence].
  apply nth_error_Some. congruence.
Qed.
Lemma hc_cut_ok k : 2 <= n -> 1 <= k <= n ->
  exists labels, hc_cut push pushpop k children n = Ok labels /\ numbers n k (joined n children (n - k)) labels.
Proof.
  intros Hn Hk. unfold hc_cut. rewrite (proj2 (Z.ltb_ge n k)) by lia.
  destruct Hq as [heap [H1 [Hmin [Hpush Hpop]]]].
  destruct (merge_at n children Tr (n - 2)) as [a [b [E _]]]; [lia|].
  assert (G : py_get children (-1) = Ok (a, b)).
  { unfold py_get. destruct (Z.ltb_spec (-1) 0); [|lia]. destruct Tr as [L _]. rewrite L. replace (-1 + (n - 1)) with (n - 2) by lia. now rewrite E. }
  rewrite G. cbn [bind fst snd]. rewrite (last_merge n children Tr a b Hn E). replace (2 * n - 3 + 1) with (2 * n - 2) by lia.
  assert (I0 : holds_nodes heap (n - 1) [- (2 * n - 2)]).
  { split; [apply H1|]. split; [constructor; [intros []|constructor]|]. intros v. rewrite (active_root n children Tr Hn). cbn. lia. }
  destruct (split_nodes_ok heap Hmin Hpush Hpop (Z.to_nat (k - 1)) (n - 1) _ ltac:(lia) ltac:(lia) I0) as [nodes [En [[_ [Nd Ac]] Ln]]].
  rewrite En. cbn [bind]. replace (n - 1 - Z.of_nat (Z.to_nat (k - 1))) with (n - k) in Ac by lia.
  rewrite zlen_cons in Ln. change (zlen (@nil Z)) with 0 in Ln. replace (0 + 1 + Z.of_nat (Z.to_nat (k - 1))) with k in Ln by lia.
  assert (Ac' : forall u, In u nodes <-> active n children (n - k) (- u)).
  { intros u. rewrite <- Ac, Z.opp_involutive. reflexivity. }
  assert (M : 0 <= n - k <= n - 1) by lia.
  destruct (label_nodes_ok n children Tr nodes 0 (tabZ n (fun _ => 0))) as [out [Eo [Lo [Hin Hout]]]].
  - intros u I. apply Ac' in I. destruct I as [R _]. lia.
  - now apply zlen_tabZ; lia.
  - intros p q u v x Ep Eq Bu Bv. apply (nodup_Znth nodes p q u Nd Ep).
    assert (- u = - v). { apply (active_disjoint n children Tr (n - k) M _ _ x); try assumption; apply Ac'; eapply Znth_In; eauto. }
    now replace u with v by lia.
  - assert (Lab : forall x l, Znth out x = Some l -> exists u, Znth nodes l = Some u /\ below n children (- u) x).
    { intros x l El. pose proof (Znth_Some_lt _ _ _ El) as Rx. rewrite Lo in Rx.
      destruct (active_cover n children Tr (n - k) M x Rx) as [v [Av Bv]]. apply Ac, In_Znth in Av. destruct Av as [p [_ Ep]].
      assert (Bv' : below n children (- - v) x) by now rewrite Z.opp_involutive.
      specialize (Hin _ _ _ Ep Bv'). rewrite El in Hin. injection Hin as ->. exists (- v). auto. }
    exists out. split; [exact Eo|]. split; [exact Lo|]. split.
    + intros l. split.
      * intros I. apply In_Znth in I. destruct I as [x [_ Ex]]. destruct (Lab _ _ Ex) as [u [Eu _]]. apply Znth_Some_lt in Eu. lia.
      * intros Hl. destruct (Znth_ex nodes l) as [u Eu]; [lia|]. pose proof (Znth_In _ _ _ Eu) as Iu. apply Ac' in Iu. destruct Iu as [Ru _].
        destruct (below_ex n children Tr (- u)) as [x Bx]; [lia|]. specialize (Hin _ _ _ Eu Bx). rewrite Z.add_0_l in Hin. eapply Znth_In; eauto.
    + intros x y lx ly Ex Ey. destruct (Lab _ _ Ex) as [u [Eu Bu]]. destruct (Lab _ _ Ey) as [v [Ev Bv]].
      rewrite (joined_active n children Tr (n - k) x y M). split.
      * intros ->. exists (- u). split; [apply Ac'; eapply Znth_In; eauto|]. split; [exact Bu|]. congruence.
      * intros [w [Aw [Bx By]]].
        assert (- u = w) by (apply (active_disjoint n children Tr (n - k) M _ _ x); try assumption; apply Ac'; eapply Znth_In; eauto).
        assert (- v = w) by (apply (active_disjoint n children Tr (n - k) M _ _ y); try assumption; apply Ac'; eapply Znth_In; eauto).
        apply (nodup_Znth nodes lx ly u Nd Eu). now replace u with v by lia.
Qed.
End Heap.

(** ** Single linkage *)
Section Single.
Variable n : Z.
Variable D : Z -> Z -> Qc.
Variable children : list (Z * Z).
Variable distances : list Qc.
Hypothesis SL : single_linkage n D children distances.
Hypothesis Sy : forall x y, 0 <= x < n -> 0 <= y < n -> D x y = D y x.
Lemma SL_tree : merge_tree n children. Proof. apply SL. Qed.
Lemma SL_distance i : 0 <= i < n - 1 -> exists a b d, Znth children i = Some (a, b) /\ Znth distances i = Some d /\
    (exists x y, below n children a x /\ below n children b y /\ D x y = d) /\
    (forall x y, 0 <= x < n -> 0 <= y < n -> ~ joined n children i x y -> (d <= D x y)%Qc).
Proof.
  intros H. destruct SL as [T [L S]]. destruct (merge_at n children T i H) as [a [b [E _]]].
  destruct (Znth_ex distances i) as [d Ed]; [lia|]. exists a, b, d. split; [exact E|]. split; [exact Ed|]. exact (S _ _ _ _ E Ed).
Qed.
Lemma not_joined_yet i a b x y : Znth children i = Some (a, b) -> below n children a x -> below n children b y -> ~ joined n children i x y.
Proof.
  intros E Bx By J. pose proof SL_tree as T. destruct (merge_range n children T _ _ _ E) as [Ri _].
  apply (joined_active n children T) in J; [|lia]. destruct J as [v [Av [Vx Vy]]].
  destruct (active_children n children T _ _ _ E) as [Aa Ab].
  assert (a = v) by (apply (active_disjoint n children T i ltac:(lia) _ _ x); assumption).
  assert (b = v) by (apply (active_disjoint n children T i ltac:(lia) _ _ y); assumption).
  destruct (merge_at n children T i Ri) as [a' [b' [E' [_ [_ N]]]]]. rewrite E in E'. injection E' as <- <-. congruence.
Qed.
Lemma heights_sorted i j d d' : 0 <= i <= j -> Znth distances i = Some d -> Znth distances j = Some d' -> (d <= d')%Qc.
Proof.
  intros H Ei Ej. assert (Rj := Znth_Some_lt _ _ _ Ej). pose proof SL as [T [L _]].
  destruct (SL_distance i) as [a [b [d0 [E [Ed [_ Mn]]]]]]; [lia|]. rewrite Ei in Ed. injection Ed as <-.
  destruct (SL_distance j) as [a' [b' [d1 [E' [Ed' [[x [y [Bx [By <-]]]] _]]]]]]; [lia|]. rewrite Ej in Ed'. injection Ed' as ->.
  apply Mn.
  - now apply (below_range n children T) in Bx.
  - now apply (below_range n children T) in By.
  - intros [v [Hv [Vx Vy]]]. apply (not_joined_yet _ _ _ _ _ E' Bx By). exists v. split; [lia|]. auto.
Qed.
Lemma chain_trans s x y z : chain n D s x y -> chain n D s y z -> chain n D s x z.
Proof. intros A B. induction B; [assumption|]. econstructor; eauto. Qed.
Lemma chain_range s x y : 0 <= x < n -> chain n D s x y -> 0 <= y < n.
Proof. intros H C. induction C; assumption. Qed.
Lemma chain_sym s x y : 0 <= x < n -> chain n D s x y -> chain n D s y x.
Proof.
  intros H C. induction C as [|y z C IH Hz Q]; [constructor|]. pose proof (chain_range _ _ _ H C) as Hy.
  apply (chain_trans s z y x); [|exact IH]. apply (chain_step n D s z z y); [constructor|assumption|]. now rewrite Sy.
Qed.
Lemma below_chain s m : (forall i d, 0 <= i < m -> Znth distances i = Some d -> (d <= s)%Qc) -> 
  forall k, 0 <= k <= n + m -> forall v x y, v < k -> below n children v x -> below n children v y -> chain n D s x y.
Proof.
  intros Hd k [Hk Hk2]. revert Hk2. pattern k. apply natlike_ind; [| |exact Hk].
  - intros _ v x y Hv B. apply (below_range n children SL_tree) in B. lia.
  - intros j Hj IH Hk2 v x y Hv Bx By. destruct (Z_lt_le_dec v n).
    + apply (below_small n children SL_tree) in Bx; [|lia]. apply (below_small n children SL_tree) in By; [|lia]. subst. constructor.
    + pose proof (below_range n children SL_tree _ _ Bx) as [Rx Rv]. pose proof (below_range n children SL_tree _ _ By) as [Ry _].
      destruct (SL_distance (v - n)) as [a [b [d [E [Ed [[p [q [Bp [Bq Q]]]] _]]]]]]; [lia|].
      assert (Ds : (d <= s)%Qc) by (apply (Hd (v - n)); [lia|exact Ed]).
      pose proof (merge_range n children SL_tree _ _ _ E) as [_ [Ra Rb]].
      pose proof (below_range n children SL_tree _ _ Bp) as [Rp _]. pose proof (below_range n children SL_tree _ _ Bq) as [Rq _].
      assert (PQ : chain n D s p q) by (apply (chain_step n D s p p q); [constructor|assumption|now rewrite Q]).
      replace v with (n + (v - n)) in Bx, By by lia. pose proof (below_inv n children SL_tree _ _ _ _ E Bx) as Cx. pose proof (below_inv n children SL_tree _ _ _ _ E By) as Cy.
      assert (IH' := fun w => IH ltac:(lia) w).
      destruct Cx as [Cx|Cx]; destruct Cy as [Cy|Cy].
      * apply (IH' a); [lia|assumption|assumption].
      * apply (chain_trans s x p y); [apply (IH' a); [lia|assumption|assumption]|]. apply (chain_trans s p q y); [exact PQ|].
        apply (IH' b); [lia|assumption|assumption].
      * apply (chain_trans s x q y); [apply (IH' b); [lia|assumption|assumption]|]. apply (chain_trans s q p y); [now apply chain_sym|].
        apply (IH' a); [lia|assumption|assumption].
      * apply (IH' b); [lia|assumption|assumption].
Qed.
Lemma joined_all x y : 2 <= n -> 0 <= x < n -> 0 <= y < n -> joined n children (n - 1) x y.
Proof.
  intros Hn Hx Hy. pose proof SL_tree as T. apply (joined_active n children T); [lia|].
  destruct (active_cover n children T (n - 1) ltac:(lia) x Hx) as [u [Au Bu]]. destruct (active_cover n children T (n - 1) ltac:(lia) y Hy) as [v [Av Bv]].
  apply (active_root n children T Hn) in Av. exists u. split; [exact Au|]. split; [exact Bu|]. apply (active_root n children T Hn) in Au. congruence.
Qed.
Lemma joined_chain s m : 2 <= n -> 0 <= m <= n - 1 ->
  (forall i d, 0 <= i < m -> Znth distances i = Some d -> (d <= s)%Qc) -> (forall d, Znth distances m = Some d -> (s < d)%Qc) ->
  forall x y, 0 <= x < n -> 0 <= y < n -> (joined n children m x y <-> chain n D s x y).
Proof.
  intros Hn Hm Lo Hi x y Hx Hy. pose proof SL_tree as T. split.
  - intros [v [Hv [Bx By]]]. apply (below_chain s m Lo (n + m) ltac:(lia) v x y Hv Bx By).
  - intros C. clear Hy. induction C as [|y z C IH Hz Q]; [apply joined_refl; [lia|exact Hx]|].
    apply (joined_trans n children T m x y z Hm IH). pose proof (chain_range _ _ _ Hx C) as Hy.
    destruct (Z.eq_dec m (n - 1)) as [->|N]; [now apply joined_all|].
    destruct (joined_dec n children T m y z Hm Hy Hz) as [J|J]; [exact J|]. exfalso.
    destruct (SL_distance m) as [a [b [d [E [Ed [_ Mn]]]]]]; [lia|]. specialize (Hi _ Ed). specialize (Mn y z Hy Hz J). qlra.
Qed.
End Single.
