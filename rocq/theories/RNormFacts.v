(** p-norms: non-negativity, zero, homogeneity and the triangle (Minkowski)
    inequality for p >= 1. *)
From Coq Require Import Reals Lra Permutation.
From Verif Require Import Np NpFacts Fl RNp.
Open Scope R_scope.

Lemma rpow_0 y : y <> 0 -> rpow 0 y = 0.
Proof. intros H. unfold rpow. destruct (Req_EM_T 0 0); [|lra]. destruct (Req_EM_T y 0); [lra|reflexivity]. Qed.
Lemma rpow_pos x y : 0 < x -> rpow x y = Rpower x y.
Proof. intros H. unfold rpow. destruct (Req_EM_T x 0); [lra|reflexivity]. Qed.
Lemma rpow_gt0 x y : 0 < x -> 0 < rpow x y.
Proof. intros H. rewrite rpow_pos by assumption. unfold Rpower. apply exp_pos. Qed.
Lemma rpow_nonneg x y : 0 <= x -> 0 <= rpow x y.
Proof.
  intros H. destruct (Req_dec x 0) as [->|N]; [|left; apply rpow_gt0; lra].
  unfold rpow. destruct (Req_EM_T 0 0); [|lra]. destruct (Req_EM_T y 0); lra.
Qed.
Lemma rpow_1 x : 0 <= x -> rpow x 1 = x.
Proof.
  intros H. destruct (Req_dec x 0) as [->|N]; [apply rpow_0; lra|]. rewrite rpow_pos by lra. apply Rpower_1. lra.
Qed.
Lemma rpow_1_l y : rpow 1 y = 1.
Proof. rewrite rpow_pos by lra. unfold Rpower. rewrite ln_1, Rmult_0_r. apply exp_0. Qed.
Lemma rpow_mult x y z : 0 <= x -> y <> 0 -> z <> 0 -> rpow (rpow x y) z = rpow x (y * z).
Proof.
  intros H Hy Hz. assert (Hyz : y * z <> 0) by (apply Rmult_integral_contrapositive; auto).
  destruct (Req_dec x 0) as [->|N]; [rewrite !rpow_0 by assumption; reflexivity|].
  rewrite (rpow_pos (rpow x y)) by (apply rpow_gt0; lra). rewrite !rpow_pos by lra. apply Rpower_mult.
Qed.
Lemma rpow_inv x p : 0 <= x -> p <> 0 -> rpow (rpow x p) (1 / p) = x.
Proof.
  intros H Hp. rewrite rpow_mult; [|assumption|assumption|]. 2:{ unfold Rdiv. rewrite Rmult_1_l. now apply Rinv_neq_0_compat. }
  replace (p * (1 / p)) with 1 by (field; assumption). now apply rpow_1.
Qed.
Lemma rpow_inv' x p : 0 <= x -> p <> 0 -> rpow (rpow x (1 / p)) p = x.
Proof.
  intros H Hp. rewrite rpow_mult; [|assumption| |assumption]. 2:{ unfold Rdiv. rewrite Rmult_1_l. now apply Rinv_neq_0_compat. }
  replace (1 / p * p) with 1 by (field; assumption). now apply rpow_1.
Qed.
Lemma rpow_prod x y p : 0 <= x -> 0 <= y -> p <> 0 -> rpow (x * y) p = rpow x p * rpow y p.
Proof.
  intros Hx Hy Hp. destruct (Req_dec x 0) as [->|Nx]; [rewrite Rmult_0_l, rpow_0 by assumption; ring|].
  destruct (Req_dec y 0) as [->|Ny]; [rewrite Rmult_0_r, rpow_0 by assumption; ring|].
  rewrite !rpow_pos by (try apply Rmult_lt_0_compat; lra). symmetry; apply Rpower_mult_distr; lra.
Qed.
Lemma rpow_div x y p : 0 <= x -> 0 < y -> p <> 0 -> rpow (x / y) p = rpow x p / rpow y p.
Proof.
  intros Hx Hy Hp. pose proof (rpow_gt0 y p Hy). apply (Rmult_eq_reg_r (rpow y p)); [|lra].
  rewrite <- rpow_prod; [|apply Rmult_le_pos; [assumption|left; now apply Rinv_0_lt_compat]|lra|assumption].
  replace (x / y * y) with x by (field; lra). field. lra.
Qed.
Lemma rpow_le x y p : 0 <= x <= y -> 0 < p -> rpow x p <= rpow y p.
Proof.
  intros [Hx Hxy] Hp. destruct (Req_dec x 0) as [->|N]; [rewrite rpow_0 by lra; apply rpow_nonneg; lra|].
  rewrite !rpow_pos by lra. destruct Hxy as [Hxy|<-]; [|lra]. left. unfold Rpower. apply exp_increasing.
  apply Rmult_lt_compat_l; [lra|]. apply ln_increasing; lra.
Qed.
Lemma rpow_eq0 x p : 0 <= x -> p <> 0 -> rpow x p = 0 -> x = 0.
Proof. intros H Hp E. destruct (Req_dec x 0); [assumption|]. pose proof (rpow_gt0 x p ltac:(lra)). lra. Qed.

(** y^t <= 1 + t (y - 1) *)
Lemma exp_ge x : 1 + x <= exp x.
Proof. destruct (Req_dec x 0) as [->|N]; [rewrite exp_0; lra|]. left. now apply exp_ineq1. Qed.
Lemma exp_convex a t : 0 <= t <= 1 -> exp (t * a) <= t * exp a + (1 - t).
Proof.
  intros Ht. set (m := t * a). pose proof (exp_pos m) as Hm.
  assert (H1 : exp m * (1 + (a - m)) <= exp a).
  { replace (exp a) with (exp m * exp (a - m)) by (rewrite <- exp_plus; f_equal; ring). apply Rmult_le_compat_l; [lra|apply exp_ge]. }
  assert (H2 : exp m * (1 - m) <= 1).
  { replace 1 with (exp m * exp (- m)) at 2 by (rewrite <- exp_plus, <- exp_0; f_equal; ring). apply Rmult_le_compat_l; [lra|].
    replace (1 - m) with (1 + - m) by ring. apply exp_ge. }
  assert (E : exp m = t * (exp m * (1 + (a - m))) + (1 - t) * (exp m * (1 - m))) by (unfold m; ring).
  rewrite E. apply Rplus_le_compat; [apply Rmult_le_compat_l; lra|].
  replace (1 - t) with ((1 - t) * 1) at 2 by ring. apply Rmult_le_compat_l; lra.
Qed.
(** Bernoulli: 1 + p (t - 1) <= t^p for p >= 1, t >= 0. *)
Lemma bernoulli t p : 0 <= t -> 1 <= p -> 1 + p * (t - 1) <= rpow t p.
Proof.
  intros Ht Hp. destruct (Req_dec t 0) as [->|N]; [rewrite rpow_0 by lra; lra|].
  rewrite rpow_pos by lra. unfold Rpower. set (y := p * ln t).
  assert (H : exp (/ p * y) <= / p * exp y + (1 - / p)).
  { apply exp_convex. split; [left; apply Rinv_0_lt_compat; lra|]. rewrite <- Rinv_1. apply Rinv_le_contravar; lra. }
  assert (E : exp (/ p * y) = t). { unfold y. rewrite <- Rmult_assoc, Rinv_l, Rmult_1_l by lra. apply exp_ln. lra. }
  rewrite E in H. apply (Rmult_le_compat_l p) in H; [|lra].
  replace (p * (/ p * exp y + (1 - / p))) with (exp y + p - 1) in H by (field; lra). lra.
Qed.
Lemma rpow_convex x y l p : 0 <= x -> 0 <= y -> 0 <= l <= 1 -> 1 <= p ->
  rpow (l * x + (1 - l) * y) p <= l * rpow x p + (1 - l) * rpow y p.
Proof.
  intros Hx Hy Hl Hp. set (m := l * x + (1 - l) * y).
  assert (Hm0 : 0 <= m) by (unfold m; assert (0 <= l * x) by nra; assert (0 <= (1 - l) * y) by nra; lra).
  destruct (Req_dec m 0) as [E|N].
  - rewrite E, rpow_0 by lra. pose proof (rpow_nonneg x p Hx). pose proof (rpow_nonneg y p Hy). nra.
  - assert (Hm : 0 < m) by lra.
    assert (B : forall z, 0 <= z -> rpow m p * (1 + p * (z / m - 1)) <= rpow z p).
    { intros z Hz. replace (rpow z p) with (rpow m p * rpow (z / m) p).
      - apply Rmult_le_compat_l; [apply rpow_nonneg; lra|]. apply bernoulli; [|assumption].
        apply Rmult_le_pos; [assumption|left; now apply Rinv_0_lt_compat].
      - rewrite rpow_div by lra. pose proof (rpow_gt0 m p Hm). field. lra. }
    pose proof (B x Hx) as Bx. pose proof (B y Hy) as By.
    apply (Rmult_le_compat_l l) in Bx; [|lra]. apply (Rmult_le_compat_l (1 - l)) in By; [|lra].
    assert (E : rpow m p = l * (rpow m p * (1 + p * (x / m - 1))) + (1 - l) * (rpow m p * (1 + p * (y / m - 1)))).
    { transitivity (rpow m p * (1 + p * ((l * x + (1 - l) * y) / m - 1))); [|field; lra]. fold m. field. lra. }
    lra.
Qed.

(** *** sums *)
Lemma rsum_nonneg l : (forall x, In x l -> 0 <= x) -> 0 <= rsum l.
Proof. induction l as [|x l IH]; cbn [rsum fold_right]; intros H; [lra|]. fold (rsum l). pose proof (H x (or_introl eq_refl)). assert (0 <= rsum l) by (apply IH; intros; apply H; now right). lra. Qed.
Lemma rsum_scal c l : rsum (map (fun x => c * x) l) = c * rsum l.
Proof. induction l as [|x l IH]; cbn [map rsum fold_right]; [ring|]. fold (rsum l). fold (rsum (map (fun x => c * x) l)). rewrite IH. ring. Qed.
Lemma rsum_cons x l : rsum (x :: l) = x + rsum l. Proof. reflexivity. Qed.
Lemma rsum_app l r : rsum (l ++ r) = rsum l + rsum r.
Proof. induction l as [|x l IH]; cbn [app]; [cbn; ring|]. rewrite !rsum_cons, IH. ring. Qed.
Lemma rsum_perm l r : Permutation l r -> rsum l = rsum r.
Proof. induction 1; rewrite ?rsum_cons; lra. Qed.
Lemma rsum_eq0 l : (forall x, In x l -> 0 <= x) -> rsum l = 0 -> forall x, In x l -> x = 0.
Proof.
  induction l as [|y l IH]; intros H E x Hx; [destruct Hx|]. rewrite rsum_cons in E.
  assert (0 <= y) by (apply H; now left). assert (0 <= rsum l) by (apply rsum_nonneg; intros; apply H; now right).
  destruct Hx as [<-|Hx]; [lra|]. apply IH; [intros; apply H; now right|lra|assumption].
Qed.
Lemma rmax_nonneg l : 0 <= rmax l.
Proof. induction l as [|x l IH]; cbn [rmax fold_right]; [lra|]. fold (rmax l). pose proof (Rmax_r x (rmax l)). lra. Qed.
Lemma rmax_ge l x : In x l -> x <= rmax l.
Proof. induction l as [|y l IH]; [intros []|]. cbn [rmax fold_right]. fold (rmax l). intros [<-|H]; [apply Rmax_l|]. pose proof (Rmax_r y (rmax l)). apply IH in H. lra. Qed.
Lemma rmax_le l c : 0 <= c -> (forall x, In x l -> x <= c) -> rmax l <= c.
Proof. intros Hc. induction l as [|y l IH]; cbn [rmax fold_right]; intros H; [assumption|]. fold (rmax l). apply Rmax_lub; [apply H; now left|apply IH; intros; apply H; now right]. Qed.

Definition valid_p (p : expo) : Prop := match p with Pfin p => 1 <= p | Pinf => True end.

Lemma abs_pow_nonneg p v x : In x (map (fun x => rpow (Rabs x) p) v) -> 0 <= x.
Proof. intros H. apply in_map_iff in H. destruct H as [y [<- _]]. apply rpow_nonneg, Rabs_pos. Qed.
Lemma norm_nonneg p v : 0 <= norm p v.
Proof. destruct p as [p|]; [|apply rmax_nonneg]. cbn [norm]. apply rpow_nonneg. apply rsum_nonneg, abs_pow_nonneg. Qed.
Lemma norm_zero p v : (match p with Pfin p => 0 < p | Pinf => True end) -> (forall x, In x v -> x = 0) -> norm p v = 0.
Proof.
  intros Hp H. destruct p as [p|]; cbn [norm].
  - assert (E : rsum (map (fun x => rpow (Rabs x) p) v) = 0).
    { induction v as [|x v IH]; [reflexivity|]. cbn [map]. rewrite rsum_cons, IH by (intros; apply H; now right).
      rewrite (H x) by now left. rewrite Rabs_R0, rpow_0 by lra. ring. }
    rewrite E. apply rpow_0. unfold Rdiv. rewrite Rmult_1_l. apply Rinv_neq_0_compat. lra.
  - apply Rle_antisym; [|apply rmax_nonneg]. apply rmax_le; [lra|]. intros x Hx. apply in_map_iff in Hx. destruct Hx as [y [<- Hy]]. rewrite (H y Hy), Rabs_R0. lra.
Qed.
Lemma norm_eq0 p v : (match p with Pfin p => 0 < p | Pinf => True end) -> norm p v = 0 -> forall x, In x v -> x = 0.
Proof.
  intros Hp E x Hx. destruct p as [p|]; cbn [norm] in E.
  - apply rpow_eq0 in E; [|apply rsum_nonneg, abs_pow_nonneg|unfold Rdiv; rewrite Rmult_1_l; apply Rinv_neq_0_compat; lra].
    assert (A : rpow (Rabs x) p = 0).
    { eapply rsum_eq0; [apply (abs_pow_nonneg p v)|exact E|]. apply in_map_iff. eauto. }
    apply rpow_eq0 in A; [|apply Rabs_pos|lra]. destruct (Req_dec x 0) as [|N]; [assumption|]. now apply Rabs_no_R0 in N.
  - pose proof (rmax_ge (map Rabs v) (Rabs x) ltac:(apply in_map_iff; eauto)). pose proof (Rabs_pos x). destruct (Req_dec x 0) as [|N]; [assumption|]. apply Rabs_no_R0 in N. lra.
Qed.
Lemma norm_opp p v : norm p (map Ropp v) = norm p v.
Proof.
  destruct p as [p|]; cbn [norm]; rewrite map_map.
  - do 2 f_equal. apply map_ext. intros; now rewrite Rabs_Ropp.
  - f_equal. apply map_ext. intros; apply Rabs_Ropp.
Qed.

Lemma norm_pow p v : 1 <= p -> rpow (norm (Pfin p) v) p = rsum (map (fun x => rpow (Rabs x) p) v).
Proof. intros Hp. cbn [norm]. apply rpow_inv'; [apply rsum_nonneg, abs_pow_nonneg|lra]. Qed.

Lemma rsum_le2 (f g : R * R -> R) l : (forall x, In x l -> f x <= g x) -> rsum (map f l) <= rsum (map g l).
Proof. induction l as [|x l IH]; cbn [map]; intros H; [cbn; lra|]. rewrite !rsum_cons. pose proof (H x (or_introl eq_refl)). assert (rsum (map f l) <= rsum (map g l)) by (apply IH; intros; apply H; now right). lra. Qed.
Lemma rsum_lin a b (f g : R * R -> R) l : rsum (map (fun x => a * f x + b * g x) l) = a * rsum (map f l) + b * rsum (map g l).
Proof. induction l as [|x l IH]; cbn [map]; [cbn; ring|]. rewrite !rsum_cons, IH. ring. Qed.

(** Minkowski's inequality *)
Lemma minkowski p (l : list (R * R)) : valid_p p ->
  norm p (map (fun xy => fst xy + snd xy) l) <= norm p (map fst l) + norm p (map snd l).
Proof.
  intros Hp. destruct p as [p|].
  2:{ cbn [norm]. apply rmax_le.
    - pose proof (rmax_nonneg (map Rabs (map fst l))). pose proof (rmax_nonneg (map Rabs (map snd l))). lra.
    - intros x Hx. rewrite map_map in Hx. apply in_map_iff in Hx. destruct Hx as [xy [<- Hxy]]. eapply Rle_trans; [apply Rabs_triang|].
      apply Rplus_le_compat; apply rmax_ge; apply in_map, in_map; assumption. }
  cbn [valid_p] in Hp. set (a := norm (Pfin p) (map fst l)). set (b := norm (Pfin p) (map snd l)).
  pose proof (norm_nonneg (Pfin p) (map fst l)) as Ha. pose proof (norm_nonneg (Pfin p) (map snd l)) as Hb. fold a in Ha. fold b in Hb.
  destruct (Req_dec a 0) as [Ea|Na].
  { assert (Z : forall x, In x (map fst l) -> x = 0) by (apply (norm_eq0 (Pfin p)); [lra|assumption]).
    assert (E : map (fun xy => fst xy + snd xy) l = map snd l).
    { apply map_ext_in. intros xy H. rewrite (Z (fst xy)) by now apply in_map. ring. }
    rewrite E. fold b. lra. }
  destruct (Req_dec b 0) as [Eb|Nb].
  { assert (Z : forall x, In x (map snd l) -> x = 0) by (apply (norm_eq0 (Pfin p)); [lra|assumption]).
    assert (E : map (fun xy => fst xy + snd xy) l = map fst l).
    { apply map_ext_in. intros xy H. rewrite (Z (snd xy)) by now apply in_map. ring. }
    rewrite E. fold a. lra. }
  assert (Ha' : 0 < a) by lra. assert (Hb' : 0 < b) by lra. set (lam := a / (a + b)).
  assert (Hl : 0 <= lam <= 1).
  { unfold lam. split; [apply Rmult_le_pos; [lra|left; apply Rinv_0_lt_compat; lra]|]. apply (Rmult_le_reg_r (a + b)); [lra|].
    replace (a / (a + b) * (a + b)) with a by (field; lra). lra. }
  assert (El : 1 - lam = b / (a + b)) by (unfold lam; field; lra).
  pose proof (rpow_gt0 a p Ha') as Pa. pose proof (rpow_gt0 b p Hb') as Pb. pose proof (rpow_gt0 (a + b) p ltac:(lra)) as Pab.
  assert (S : rsum (map (fun xy => rpow (Rabs (fst xy + snd xy)) p) l) <= rpow (a + b) p).
  { eapply Rle_trans.
    - apply (rsum_le2 _ (fun xy => (rpow (a + b) p * lam / rpow a p) * rpow (Rabs (fst xy)) p + (rpow (a + b) p * (1 - lam) / rpow b p) * rpow (Rabs (snd xy)) p)).
      intros [x y] _. cbn [fst snd].
      assert (T : Rabs (x + y) <= (a + b) * (lam * (Rabs x / a) + (1 - lam) * (Rabs y / b))).
      { rewrite El. unfold lam. replace ((a + b) * (a / (a + b) * (Rabs x / a) + b / (a + b) * (Rabs y / b))) with (Rabs x + Rabs y) by (field; lra). apply Rabs_triang. }
      assert (X0 : 0 <= Rabs x / a) by (apply Rmult_le_pos; [apply Rabs_pos|left; now apply Rinv_0_lt_compat]).
      assert (Y0 : 0 <= Rabs y / b) by (apply Rmult_le_pos; [apply Rabs_pos|left; now apply Rinv_0_lt_compat]).
      eapply Rle_trans; [apply rpow_le; [split; [apply Rabs_pos|exact T]|lra]|].
      rewrite rpow_prod; [|lra| |lra]. 2:{ assert (0 <= lam * (Rabs x / a)) by nra. assert (0 <= (1 - lam) * (Rabs y / b)) by nra. lra. }
      pose proof (rpow_convex (Rabs x / a) (Rabs y / b) lam p X0 Y0 Hl Hp) as C.
      rewrite !rpow_div in C by (try apply Rabs_pos; lra).
      apply (Rmult_le_compat_l (rpow (a + b) p)) in C; [|lra].
      eapply Rle_trans; [exact C|]. right. field. lra.
    - rewrite rsum_lin. rewrite <- (map_map fst (fun x => rpow (Rabs x) p)), <- (map_map snd (fun x => rpow (Rabs x) p)).
      rewrite <- !norm_pow by assumption. fold a. fold b. right. field. lra. }
  cbn [norm]. rewrite map_map. rewrite <- (rpow_inv (a + b) p) by lra.
  apply rpow_le; [|unfold Rdiv; rewrite Rmult_1_l; apply Rinv_0_lt_compat; lra]. split; [|exact S].
  apply rsum_nonneg. intros z Hz. apply in_map_iff in Hz. destruct Hz as [xy [<- _]]. apply rpow_nonneg, Rabs_pos.
Qed.

(** *** Minkowski distance *)
Lemma mink_nonneg p u v : 0 <= mink p u v. Proof. apply norm_nonneg. Qed.
Lemma mink_refl p u : (match p with Pfin p => 0 < p | Pinf => True end) -> mink p u u = 0.
Proof.
  intros Hp. apply norm_zero; [assumption|]. intros x Hx. apply in_map_iff in Hx. destruct Hx as [[a b] [<- H]]. cbn [fst snd].
  assert (a = b); [|subst; ring]. clear Hp. induction u as [|c u IH]; [destruct H|]. cbn [combine] in H. destruct H as [E|H]; [congruence|auto].
Qed.
Lemma vsub_sym u v : vsub v u = map Ropp (vsub u v).
Proof. unfold vsub. rewrite map_map. revert v; induction u as [|a u IH]; intros [|b v]; cbn [combine map]; try reflexivity. rewrite IH. f_equal. cbn [fst snd]. ring. Qed.
Lemma mink_sym p u v : mink p u v = mink p v u.
Proof. unfold mink. rewrite (vsub_sym v u). now rewrite norm_opp. Qed.
Lemma vsub_split u v w : length u = length v -> length v = length w ->
  exists l, vsub u w = map (fun xy => fst xy + snd xy) l /\ vsub u v = map fst l /\ vsub v w = map snd l.
Proof.
  revert v w; induction u as [|a u IH]; intros [|b v] [|c w] H1 H2; try discriminate.
  - exists []. repeat split; reflexivity.
  - destruct (IH v w) as [l [E1 [E2 E3]]]; [now injection H1|now injection H2|].
    exists ((a - b, b - c) :: l). unfold vsub in *. cbn [combine map fst snd]. rewrite E1, E2, E3. repeat split; try reflexivity. f_equal. ring.
Qed.
Lemma mink_triangle p u v w : valid_p p -> length u = length v -> length v = length w -> mink p u w <= mink p u v + mink p v w.
Proof. intros Hp H1 H2. destruct (vsub_split u v w H1 H2) as [l [E1 [E2 E3]]]. unfold mink. rewrite E1, E2, E3. now apply minkowski. Qed.
Lemma norm_mono p u v : (match p with Pfin p => 0 < p | Pinf => True end) -> Forall2 (fun x y => Rabs x <= Rabs y) u v -> norm p u <= norm p v.
Proof.
  intros Hp F. destruct p as [p|]; cbn [norm].
  - apply rpow_le; [split; [apply rsum_nonneg, abs_pow_nonneg|]|unfold Rdiv; rewrite Rmult_1_l; now apply Rinv_0_lt_compat].
    induction F; cbn [map]; [cbn; lra|]. rewrite !rsum_cons. apply Rplus_le_compat; [|assumption]. apply rpow_le; [split; [apply Rabs_pos|assumption]|assumption].
  - induction F; cbn [map]; [cbn; lra|]. cbn [rmax fold_right]. fold (rmax (map Rabs l)). fold (rmax (map Rabs l')).
    apply Rmax_lub; [eapply Rle_trans; [eassumption|apply Rmax_l]|eapply Rle_trans; [eassumption|apply Rmax_r]].
Qed.
Lemma norm_app_zero p u v : (match p with Pfin p => 0 < p | Pinf => True end) -> (forall x, In x v -> x = 0) -> norm p (u ++ v) = norm p u.
Proof.
  intros Hp H. destruct p as [p|]; cbn [norm]; rewrite map_app.
  - rewrite rsum_app. replace (rsum (map (fun x => rpow (Rabs x) p) v)) with 0; [now rewrite Rplus_0_r|]. symmetry.
    induction v as [|x v IH]; [reflexivity|]. cbn [map]. rewrite rsum_cons, IH by (intros; apply H; now right). rewrite (H x) by now left. rewrite Rabs_R0, rpow_0 by lra. ring.
  - apply Rle_antisym.
    + apply rmax_le; [apply rmax_nonneg|]. intros x Hx. apply in_app_or in Hx. destruct Hx as [Hx|Hx]; [now apply rmax_ge|].
      apply in_map_iff in Hx. destruct Hx as [y [<- Hy]]. rewrite (H y Hy), Rabs_R0. apply rmax_nonneg.
    + apply rmax_le; [apply rmax_nonneg|]. intros x Hx. apply rmax_ge. apply in_or_app. now left.
Qed.
Lemma norm_perm p u v : Permutation u v -> norm p u = norm p v.
Proof.
  intros P. destruct p as [p|]; cbn [norm].
  - f_equal. apply rsum_perm. now apply Permutation_map.
  - apply Rle_antisym; (apply rmax_le; [apply rmax_nonneg|]); intros x Hx; apply rmax_ge; eapply Permutation_in; try exact Hx; [|symmetry]; now apply Permutation_map.
Qed.
