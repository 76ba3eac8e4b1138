(** C67: the mutual information of a series and its delayed copy. *)
From Coq Require Import Reals Lra.
From Verif Require Import Np NpFacts Fl RNp RNormFacts MetricSpec MetricProofs2 FeatProofs FilterThms TSModel TSProofs TakensModel TakensSpec LocalThms2 TakensThms.
From Verif Require NdFacts.
Open Scope Z_scope.

(** ** Sums *)
Lemma Sum_ext m f g : (forall i, 0 <= i < m -> f i = g i) -> Sum m f = Sum m g.
Proof. intros H. unfold Sum. f_equal. apply map_ext_in. intros i Hi. apply H. now apply In_arange. Qed.
Lemma Sum_add m f g : Sum m (fun i => f i + g i)%R = (Sum m f + Sum m g)%R.
Proof. apply total_map_add. Qed.
Lemma Sum_scal m c f : Sum m (fun i => c * f i)%R = (c * Sum m f)%R.
Proof. apply total_map_scal. Qed.
Lemma Sum_div m f N : Sum m (fun i => f i / N)%R = (Sum m f / N)%R.
Proof. transitivity (Sum m (fun i => / N * f i))%R; [apply Sum_ext; intros; unfold Rdiv; ring|]. rewrite Sum_scal. unfold Rdiv. ring. Qed.
Lemma Sum_nonneg m f : (forall i, 0 <= i < m -> (0 <= f i)%R) -> (0 <= Sum m f)%R.
Proof.
  intros H. unfold Sum. change total with rsum. apply rsum_nonneg. intros x Hx. apply in_map_iff in Hx. destruct Hx as [i [<- Hi]]. apply H. now apply In_arange.
Qed.
Lemma Sum_zero m f : (forall i, 0 <= i < m -> (0 <= f i)%R) -> Sum m f = 0%R -> forall i, 0 <= i < m -> f i = 0%R.
Proof.
  intros H E i Hi. eapply (total_nonneg_zero (map f (arange m))); [|exact E|].
  - intros x Hx. apply in_map_iff in Hx. destruct Hx as [k [<- Hk]]. apply H. now apply In_arange.
  - apply in_map_iff. exists i. split; [reflexivity|]. now apply In_arange.
Qed.
Lemma Sum_le m f i : (forall i, 0 <= i < m -> (0 <= f i)%R) -> 0 <= i < m -> (f i <= Sum m f)%R.
Proof.
  intros H Hi. unfold Sum. assert (I : In i (arange m)) by now apply In_arange. assert (G : forall k, In k (arange m) -> (0 <= f k)%R) by (intros k Hk; apply H; now apply In_arange).
  revert I G. generalize (arange m). intros l. change total with rsum. induction l as [|k l IH]; [easy|]. intros I G. cbn [map]. rewrite rsum_cons.
  assert (0 <= rsum (map f l))%R by (apply rsum_nonneg; intros x Hx; apply in_map_iff in Hx; destruct Hx as [j [<- Hj]]; apply G; now right).
  pose proof (G k (or_introl eq_refl)). destruct I as [->|I]; [lra|]. specialize (IH I (fun k Hk => G k (or_intror Hk))). lra.
Qed.
Lemma Sum_swap m n (f : Z -> Z -> R) : Sum m (fun i => Sum n (f i)) = Sum n (fun j => Sum m (fun i => f i j)).
Proof.
  unfold Sum at 1 4. generalize (arange m). intros l. induction l as [|i l IH].
  - cbn [map]. change (total []) with 0%R. unfold Sum. symmetry. change (fun j : Z => total (map (fun i : Z => f i j) [])) with (fun _ : Z => 0%R). rewrite total_const. ring.
  - cbn [map]. change total with rsum in *. rewrite rsum_cons, IH. change rsum with total. rewrite <- Sum_add. apply Sum_ext. intros j _. reflexivity.
Qed.
Lemma Sum_0 m f : (forall i, 0 <= i < m -> f i = 0%R) -> Sum m f = 0%R.
Proof. intros H. rewrite (Sum_ext m f (fun _ => 0%R) H). unfold Sum. rewrite total_const. ring. Qed.
Lemma Sum_Sum_pos m c : (forall i j, 0 <= i < m -> 0 <= j < m -> (0 <= c i j)%R) ->
  (0 <= Sum m (fun i => Sum m (c i)))%R /\
  (Sum m (fun i => Sum m (c i)) = 0%R -> forall i j, 0 <= i < m -> 0 <= j < m -> c i j = 0%R).
Proof.
  intros H. assert (G : forall i, 0 <= i < m -> (0 <= Sum m (c i))%R) by (intros i Hi; apply Sum_nonneg; intros j Hj; now apply H).
  split; [now apply Sum_nonneg|]. intros E i j Hi Hj. eapply (Sum_zero m (c i)); [|eapply (Sum_zero m (fun i => Sum m (c i)))|]; eauto.
Qed.

(** ** Mutual information is never negative, and zero iff the two variables are independent *)
Lemma gibbs p q : (0 < p)%R -> (0 < q)%R -> (p - q <= p * ln (p / q))%R /\ (p * ln (p / q) = p - q -> p = q)%R.
Proof.
  intros Hp Hq. assert (E : (p * ln (p / q) = - (p * ln (q / p)))%R).
  { unfold Rdiv. rewrite !ln_mult by (try assumption; now apply Rinv_0_lt_compat). rewrite !ln_Rinv by assumption. ring. }
  assert (P : (0 < q / p)%R) by now apply Rdiv_lt_0_compat. rewrite E.
  pose proof (exp_ineq1_le (ln (q / p))) as X. rewrite exp_ln in X by assumption.
  assert (F : (p * (q / p) = q)%R) by (field; lra). split; [nra|]. intros G.
  destruct (Req_dec (ln (q / p)) 0) as [Z|Z].
  - rewrite Z in G. lra.
  - pose proof (exp_ineq1 _ Z) as Y. rewrite exp_ln in Y by assumption. nra.
Qed.
Lemma information_excess m c : (forall i j, 0 <= i < m -> 0 <= j < m -> (0 <= c i j)%R) ->
  let N := Sum m (fun i => Sum m (c i)) in (0 < N)%R ->
  let q i j := ((Sum m (c i) / N) * (Sum m (fun i' => c i' j) / N))%R in
  exists g, information m c = Sum m (fun i => Sum m (g i)) /\
    forall i j, 0 <= i < m -> 0 <= j < m -> (0 <= g i j)%R /\ (g i j = 0%R <-> c i j / N = q i j)%R.
Proof.
  intros C N HN q.
  exists (fun i j => (if Req_EM_T (c i j) 0 then q i j else (c i j / N) * ln ((c i j / N) / q i j) - (c i j / N) + q i j)%R).
  assert (Row : forall i, Sum m (fun j => c i j / N)%R = (Sum m (c i) / N)%R).
  { intros i. unfold Rdiv. rewrite (Sum_ext m _ (fun j => / N * c i j)%R) by (intros; ring). rewrite Sum_scal. ring. }
  assert (Col : forall j, Sum m (fun i => c i j / N)%R = (Sum m (fun i => c i j) / N)%R).
  { intros i. unfold Rdiv. rewrite (Sum_ext m _ (fun j => / N * c j i)%R) by (intros; ring). rewrite Sum_scal. ring. }
  assert (One : Sum m (fun i => Sum m (fun j => c i j / N))%R = 1%R).
  { transitivity (Sum m (fun i => / N * Sum m (c i)))%R; [apply Sum_ext; intros i _; rewrite Row; unfold Rdiv; ring|]. rewrite Sum_scal. fold N. field. lra. }
  assert (OneQ : Sum m (fun i => Sum m (q i)) = 1%R).
  { unfold q. rewrite (Sum_ext m _ (fun i => Sum m (c i) / N)%R).
    - rewrite (Sum_ext m _ (fun i => / N * Sum m (c i))%R) by (intros; unfold Rdiv; ring). rewrite Sum_scal. fold N. field. lra.
    - intros i Hi. rewrite Sum_scal. rewrite (Sum_div m (fun j => Sum m (fun i' => c i' j)) N), <- Sum_swap. fold N. field. lra. }
  split.
  - unfold information. fold N.
    set (F := fun i j => if Req_EM_T (c i j) 0 then 0%R else (c i j / N * ln (c i j / N / (Sum m (fun j => c i j / N) * Sum m (fun i' => c i' j / N))))%R).
    change (Sum m (fun i => Sum m (F i)) = Sum m (fun i => Sum m (fun j => if Req_EM_T (c i j) 0 then q i j else (c i j / N * ln (c i j / N / q i j) - c i j / N + q i j)%R))).
    rewrite (Sum_ext m (fun i => Sum m (fun j => if Req_EM_T (c i j) 0 then q i j else _)) (fun i => Sum m (F i) + (-1 * Sum m (fun j => c i j / N) + Sum m (q i)))%R).
    + rewrite Sum_add. rewrite Sum_add, Sum_scal, One, OneQ. ring.
    + intros i Hi. rewrite <- Sum_scal, <- Sum_add, <- Sum_add. apply Sum_ext. intros j Hj. unfold F. rewrite Row, Col. fold (q i j). destruct (Req_EM_T (c i j) 0) as [E|E]; [rewrite E|]; unfold Rdiv; ring.
  - intros i j Hi Hj.
    assert (Qn : (0 <= q i j)%R).
    { unfold q. apply Rmult_le_pos; (unfold Rdiv; apply Rmult_le_pos; [apply Sum_nonneg; intros k Hk; now apply C|left; now apply Rinv_0_lt_compat]). }
    destruct (Req_EM_T (c i j) 0) as [E|E].
    + split; [assumption|]. rewrite E. unfold Rdiv. rewrite Rmult_0_l. split; intros; lra.
    + assert (P : (0 < c i j)%R) by (pose proof (C i j Hi Hj); lra).
      assert (Pr : (0 < Sum m (c i))%R) by (pose proof (Sum_le m (c i) j (fun k Hk => C i k Hi Hk) Hj); lra).
      assert (Pc : (0 < Sum m (fun i' => c i' j))%R) by (pose proof (Sum_le m (fun i' => c i' j) i (fun k Hk => C k j Hk Hj) Hi); cbv beta in *; lra).
      assert (Pp : (0 < c i j / N)%R) by now apply Rdiv_lt_0_compat. assert (Pq : (0 < q i j)%R) by (unfold q; apply Rmult_lt_0_compat; now apply Rdiv_lt_0_compat).
      destruct (gibbs _ _ Pp Pq) as [G1 G2]. split; [lra|]. split; intros H; [apply G2; lra|]. rewrite <- H. replace (c i j / N / (c i j / N))%R with 1%R by (field; lra). rewrite ln_1. ring.
Qed.
Theorem information_nonneg m c : (forall i j, 0 <= i < m -> 0 <= j < m -> (0 <= c i j)%R) -> (0 <= information m c)%R.
Proof.
  intros C. destruct (Sum_Sum_pos m c C) as [P Z]. destruct (Req_dec (Sum m (fun i => Sum m (c i))) 0) as [E|E].
  - unfold information. right. symmetry. apply Sum_0. intros i Hi. apply Sum_0. intros j Hj. rewrite (Z E i j Hi Hj). now destruct (Req_EM_T 0 0).
  - destruct (information_excess m c C) as [g [-> H]]; [lra|]. apply Sum_nonneg. intros i Hi. apply Sum_nonneg. intros j Hj. now apply H.
Qed.
Theorem information_zero m c : (forall i j, 0 <= i < m -> 0 <= j < m -> (0 <= c i j)%R) ->
  (information m c = 0%R <-> forall i j, 0 <= i < m -> 0 <= j < m ->
     (c i j * Sum m (fun i => Sum m (c i)) = Sum m (c i) * Sum m (fun i' => c i' j))%R).
Proof.
  intros C. destruct (Sum_Sum_pos m c C) as [P Z]. destruct (Req_dec (Sum m (fun i => Sum m (c i))) 0) as [E|E].
  - specialize (Z E). split; intros _.
    + intros i j Hi Hj. rewrite (Z i j Hi Hj), (Sum_0 m (c i)) by (intros; now apply Z). ring.
    + unfold information. apply Sum_0. intros i Hi. apply Sum_0. intros j Hj. rewrite (Z i j Hi Hj). now destruct (Req_EM_T 0 0).
  - destruct (information_excess m c C) as [g [-> H]]; [lra|]. set (N := Sum m (fun i => Sum m (c i))) in *.
    assert (G : forall i j, 0 <= i < m -> 0 <= j < m -> (0 <= g i j)%R) by (intros i j Hi Hj; now apply H).
    destruct (Sum_Sum_pos m g G) as [_ Zg]. split.
    + intros S i j Hi Hj. destruct (H i j Hi Hj) as [_ [K _]]. specialize (K (Zg S i j Hi Hj)). apply (Rmult_eq_reg_r (/ N)%R); [|now apply Rinv_neq_0_compat].
      apply (Rmult_eq_reg_r (/ N)%R); [|now apply Rinv_neq_0_compat]. unfold Rdiv in K. transitivity (c i j * / N)%R; [field; assumption|]. rewrite K. ring.
    + intros K. apply Sum_0. intros i Hi. apply Sum_0. intros j Hj. apply (H i j Hi Hj). specialize (K i j Hi Hj).
      transitivity (c i j * N / N / N)%R; [field; assumption|]. rewrite K. unfold Rdiv. ring.
Qed.
Lemma information_ext m c c' : (forall i j, 0 <= i < m -> 0 <= j < m -> c i j = c' i j) -> information m c = information m c'.
Proof.
  intros H. unfold information. assert (S : forall i, 0 <= i < m -> Sum m (c i) = Sum m (c' i)) by (intros i Hi; apply Sum_ext; intros j Hj; now apply H).
  rewrite (Sum_ext m (fun i => Sum m (c i)) (fun i => Sum m (c' i)) S). set (N := Sum m (fun i => Sum m (c' i))). apply Sum_ext. intros i Hi. apply Sum_ext. intros j Hj. rewrite (H i j Hi Hj).
  rewrite (Sum_ext m (fun i => c i j / N)%R (fun i => c' i j / N)%R) by (intros k Hk; now rewrite H). rewrite (Sum_ext m (fun j => c i j / N)%R (fun j => c' i j / N)%R) by (intros k Hk; now rewrite H). reflexivity.
Qed.
Lemma information_transpose m c : information m (fun i j => c j i) = information m c.
Proof.
  unfold information. rewrite (Sum_swap m m (fun i j => c j i)). set (N := Sum m (fun i => Sum m (c i))). change (Sum m (fun j => Sum m (fun i => c j i))) with N.
  rewrite Sum_swap. apply Sum_ext. intros i Hi. apply Sum_ext. intros j Hj. destruct (Req_EM_T (c i j) 0); [reflexivity|]. do 3 f_equal. apply Rmult_comm.
Qed.
