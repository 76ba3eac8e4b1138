(** Norms against their specification; silhouettes. *)
From Coq Require Import Reals Lra Permutation.
From Verif Require Import Np NpFacts Fl FlFacts DiagTypes DiagModel DiagSpec DiagProofs DiagProofs2
  VecModel VecSpec SliceFacts VecProofs VecProofs2 VecProofs3 VecProofs4 RNp RNormFacts MetricModel MetricSpec MetricProofs.
Open Scope Z_scope.

(** *** norms *)
Lemma spow_rpow x y : y <> 0%R -> spow x y = rpow x y.
Proof. intros H. unfold spow, rpow. destruct (Req_EM_T x 0); [|reflexivity]. destruct (Req_EM_T y 0); [contradiction|reflexivity]. Qed.
Lemma total_rsum l : total l = rsum l.
Proof. induction l; cbn; [reflexivity|]. now rewrite IHl. Qed.
Lemma rmax_attained l : l <> [] -> (forall x, In x l -> (0 <= x)%R) -> In (rmax l) l.
Proof.
  induction l as [|x l IH]; intros H N; [easy|]. cbn [rmax fold_right]. fold (rmax l). destruct l as [|y l].
  - left. cbn. rewrite Rmax_left; [reflexivity|]. apply N. now left.
  - unfold Rmax at 1. destruct (Rle_dec x (rmax (y :: l))).
    + right. apply IH; [discriminate|]. intros; apply N; now right.
    + now left.
Qed.
Lemma norm_is_norm p v : pos_p p -> is_norm p v (norm p v).
Proof.
  intros Hp. split; [apply norm_nonneg|]. destruct p as [p|]; cbn [norm].
  - cbn in Hp. rewrite spow_rpow by lra. rewrite rpow_inv' by (try apply rsum_nonneg; try apply abs_pow_nonneg; lra).
    etransitivity; [|symmetry; apply total_rsum]. f_equal. apply map_ext. intros x. now rewrite spow_rpow by lra.
  - split; [intros x Hx; apply rmax_ge; now apply in_map|]. destruct v as [|a v]; [left; split; reflexivity|right].
    assert (H : In (rmax (map Rabs (a :: v))) (map Rabs (a :: v))).
    { apply rmax_attained; [discriminate|]. intros x Hx. apply in_map_iff in Hx. destruct Hx as [y [<- _]]. apply Rabs_pos. }
    apply in_map_iff in H. destruct H as [x [E Hx]]. eauto.
Qed.
Lemma rpow_inj x y p : (0 <= x)%R -> (0 <= y)%R -> (0 < p)%R -> rpow x p = rpow y p -> x = y.
Proof. intros Hx Hy Hp E. rewrite <- (rpow_inv x p), <- (rpow_inv y p) by lra. now rewrite E. Qed.
Lemma is_norm_unique p v r : pos_p p -> is_norm p v r -> r = norm p v.
Proof.
  intros Hp [H0 H]. pose proof (norm_is_norm p v Hp) as [N0 N]. destruct p as [p|].
  - cbn in Hp. rewrite spow_rpow in H, N by lra. apply (rpow_inj _ _ p); try assumption. congruence.
  - destruct H as [H1 H2], N as [N1 N2]. destruct H2 as [[-> ->]|[x [Hx <-]]], N2 as [[E1 E2]|[y [Hy E]]]; try congruence.
    + destruct Hy.
    + subst v. destruct Hx.
    + rewrite <- E. apply Rle_antisym; [rewrite E; now apply N1|now apply H1].
Qed.

(** *** silhouettes *)
Definition proper (x : list (Qc * Qc)) : Prop := forall p, In p x -> (fst p <= snd p)%Qc.
Lemma life_nonneg x p : proper x -> In p x -> (0 <= life p)%R.
Proof. intros H Hp. unfold life. rewrite <- qr_0. apply qr_le. apply H in Hp. qlra. Qed.
Lemma life_pos x p : proper x -> In p x -> fst p <> snd p -> (0 < life p)%R.
Proof. intros H Hp N. pose proof (life_nonneg x p H Hp) as [L|L]; [assumption|]. exfalso. apply N. unfold life in L. rewrite <- qr_0 in L. apply qr_inj in L. qlra. Qed.
Lemma life_diag p : fst p = snd p -> life p = 0%R.
Proof. intros E. unfold life. rewrite E. rewrite <- qr_0. f_equal. ring. Qed.

Definition swt (power : expo) (x : list (Qc * Qc)) (p : Qc * Qc) : R :=
  match power with
  | Pfin a => rpow (life p) a
  | Pinf => if Req_EM_T (life p) (rmax (map life x)) then 1%R else 0%R
  end.
Definition silv (power : expo) (x : list (Qc * Qc)) (s : Qc) : R :=
  let W := rsum (map (swt power x) x) in
  if Req_EM_T W 0 then 0%R else (rsum (map (fun p => swt power x p * qr (tent s p)) x) / W)%R.

Lemma swt_nonneg power x p : proper x -> In p x -> (0 <= swt power x p)%R.
Proof. intros H Hp. destruct power; cbn [swt]; [apply rpow_nonneg; now apply (life_nonneg x)|]. destruct (Req_EM_T _ _); lra. Qed.
Lemma swt_is_weight power x : proper x -> pos_p power -> is_weight power x (swt power x).
Proof.
  intros H Hp p Hin. destruct power as [a|]; cbn [swt]; [cbn in Hp; rewrite spow_rpow by lra; reflexivity|].
  assert (N : forall v, In v (map life x) -> (0 <= v)%R) by (intros v Hv; apply in_map_iff in Hv; destruct Hv as [q [<- Hq]]; now apply (life_nonneg x)).
  split.
  - intros A. destruct (Req_EM_T _ _) as [|E]; [reflexivity|]. exfalso. apply E. apply Rle_antisym; [apply rmax_ge; now apply in_map|].
    apply rmax_le; [now apply (life_nonneg x)|]. intros v Hv. apply in_map_iff in Hv. destruct Hv as [q [<- Hq]]. auto.
  - intros [q [Hq L]]. destruct (Req_EM_T _ _) as [E|]; [|reflexivity]. exfalso. pose proof (rmax_ge (map life x) (life q) ltac:(now apply in_map)). lra.
Qed.
Lemma silv_is power x s : proper x -> pos_p power -> is_silhouette power x s (silv power x s).
Proof.
  intros H Hp. exists (swt power x). split; [now apply swt_is_weight|]. change total with rsum. unfold silv. cbv zeta.
  destruct (Req_EM_T _ _) as [E|E]; split; try reflexivity.
  - rewrite E. rewrite Rmult_0_r. symmetry. clear Hp.
    assert (Z : forall v, In v (map (swt power x) x) -> v = 0%R).
    { apply rsum_eq0; [|assumption]. intros v Hv. apply in_map_iff in Hv. destruct Hv as [p [<- Hp]]. now apply swt_nonneg. }
    revert Z. generalize (swt power x) as w. intros w. clear. induction x as [|p x IH]; intros Z; [reflexivity|]. cbn [map]. rewrite rsum_cons, IH.
    + rewrite (Z (w p)) by (now left). ring.
    + intros v Hv. apply Z. now right.
  - field. assumption.
  - intros F. contradiction.
Qed.

Lemma rsum_k {A} k (f : A -> R) l : rsum (map (fun p => k * f p)%R l) = (k * rsum (map f l))%R.
Proof. induction l; cbn [map]; [cbn; ring|]. rewrite !rsum_cons, IHl. ring. Qed.

(** the body of [silhouette] on weights proportional to [w] *)
Lemma finish_ok k (w : Qc * Qc -> R) (ws : list R) sampling x : k <> 0%R -> ws = map (fun p => k * w p)%R x ->
  map (fun s => let num := rsum (map (fun wp => fst wp * qr (tent_fiber s (snd wp)))%R (combine ws x)) in
      if Req_EM_T (rsum ws) 0 then 0%R else (num / rsum ws)%R) sampling =
  map (fun s => if Req_EM_T (rsum (map w x)) 0 then 0%R else (rsum (map (fun p => w p * qr (tent s p)) x) / rsum (map w x))%R) sampling.
Proof.
  intros Hk ->. rewrite rsum_k. apply map_ext. intros s. cbv zeta.
  assert (E : rsum (map (fun wp => fst wp * qr (tent_fiber s (snd wp)))%R (combine (map (fun p => k * w p)%R x) x))
     = (k * rsum (map (fun p => w p * qr (tent s p)) x))%R).
  { rewrite <- rsum_k. f_equal. clear. induction x as [|p x IH]; [reflexivity|]. cbn [map combine fst snd]. rewrite IH, tent_fiber_eq. f_equal. ring. }
  rewrite E. destruct (Req_EM_T (rsum (map w x)) 0) as [Z|Z], (Req_EM_T (k * rsum (map w x)) 0) as [Z'|Z']; try reflexivity.
  - exfalso. apply Z'. rewrite Z. ring.
  - exfalso. apply Rmult_integral in Z'. destruct Z'; contradiction.
  - field. split; assumption.
Qed.

Definition sil_defined (power : expo) (x : list (Qc * Qc)) : Prop :=
  match power with Pfin a => (a <= 8)%R | Pinf => False end \/ off_diagonal x <> [].

Lemma off_diagonal_In x p : In p (off_diagonal x) <-> In p x /\ fst p <> snd p.
Proof.
  unfold off_diagonal. rewrite filter_In. destruct (Qceqb_spec (fst p) (snd p)); cbn [negb]; split; intros [A B]; split; auto; try discriminate; contradiction.
Qed.
Lemma max_life_pos x : proper x -> off_diagonal x <> [] -> (0 < rmax (map life x))%R.
Proof.
  intros H N. destruct (off_diagonal x) as [|p r] eqn:E; [easy|]. assert (Hp : In p (off_diagonal x)) by (rewrite E; now left).
  apply off_diagonal_In in Hp. destruct Hp as [Hp D]. pose proof (life_pos x p H Hp D). pose proof (rmax_ge (map life x) (life p) ltac:(now apply in_map)). lra.
Qed.

Lemma silhouette_ok sampling power x : proper x -> pos_p power -> sil_defined power x ->
  silhouette sampling power x = Ok (Some (map (silv power x) sampling)).
Proof.
  intros H Hp HD. unfold silhouette.
  assert (EL : map lifetime x = map life x) by reflexivity. rewrite EL.
  assert (HB : large_power power = true -> off_diagonal x <> []).
  { destruct HD as [HD|HD]; [|auto]. destruct power as [a|]; [|destruct HD]. cbn [large_power]. destruct (Rlt_dec 8 a); [lra|discriminate]. }
  destruct (large_power power) eqn:EP.
  - specialize (HB eq_refl). pose proof (max_life_pos x H HB) as HM. set (m := rmax (map life x)) in *.
    assert (EM : forall (T : Type) (a b : T), match map life x with [] => a | _ :: _ => b end = b) by (destruct x; [exfalso; now apply HB|reflexivity]).
    rewrite EM. clear EM.
    destruct (Req_EM_T m 0) as [F|_]; [lra|]. do 2 f_equal.
    destruct power as [a|].
    + cbn in Hp. pose proof (rpow_gt0 m a HM) as Hma.
      apply (finish_ok (/ rpow m a) (swt (Pfin a) x)); [now apply Rinv_neq_0_compat, Rgt_not_eq|].
      rewrite !map_map. apply map_ext_in. intros p Hin. cbn [power_of swt]. rewrite rpow_div; [|now apply (life_nonneg x)|assumption|lra]. unfold Rdiv. ring.
    + apply (finish_ok 1 (swt Pinf x)); [lra|]. rewrite !map_map. apply map_ext_in. intros p Hin. cbn [power_of swt]. fold m.
      destruct (Req_EM_T (life p / m) 1) as [A|A], (Req_EM_T (life p) m) as [B|B]; try ring; exfalso.
      * apply B. apply (Rmult_eq_reg_r (/ m)); [|apply Rinv_neq_0_compat; lra]. rewrite Rinv_r by lra. exact A.
      * apply A. rewrite B. field. lra.
  - do 2 f_equal. destruct power as [a|]; [|discriminate]. apply (finish_ok 1 (swt (Pfin a) x)); [lra|].
    rewrite map_map. apply map_ext. intros p. cbn [power_of swt]. ring.
Qed.

(** diagonal points *)
Lemma rsum_off (f : Qc * Qc -> R) x : (forall p, In p x -> fst p = snd p -> f p = 0%R) -> rsum (map f x) = rsum (map f (off_diagonal x)).
Proof.
  induction x as [|p x IH]; intros H; [reflexivity|]. unfold off_diagonal. cbn [filter map]. fold (off_diagonal x). rewrite rsum_cons, IH by (intros; apply H; [now right|assumption]).
  destruct (Qceqb_spec (fst p) (snd p)) as [E|E]; cbn [negb map]; [|now rewrite rsum_cons]. rewrite (H p) by (auto; now left). ring.
Qed.
Lemma max_life_off x : rmax (map life x) = rmax (map life (off_diagonal x)).
Proof.
  induction x as [|p x IH]; [reflexivity|]. unfold off_diagonal. cbn [filter]. fold (off_diagonal x).
  destruct (Qceqb_spec (fst p) (snd p)) as [E|E]; cbn [negb map rmax fold_right]; fold (rmax (map life x)); fold (rmax (map life (off_diagonal x))); rewrite IH; [|reflexivity].
  rewrite (life_diag p E). apply Rmax_right. apply rmax_nonneg.
Qed.
Lemma rmax_perm l r : Permutation l r -> rmax l = rmax r.
Proof. intros P. apply Rle_antisym; (apply rmax_le; [apply rmax_nonneg|]); intros x Hx; apply rmax_ge; eapply Permutation_in; try exact Hx; [|symmetry]; assumption. Qed.
Lemma max_life_same x y : same_off_diagonal x y -> rmax (map life x) = rmax (map life y).
Proof. intros H. rewrite (max_life_off x), (max_life_off y). apply rmax_perm. now apply Permutation_map. Qed.
Lemma swt_diag power x p : proper x -> pos_p power -> sil_defined power x -> fst p = snd p -> swt power x p = 0%R.
Proof.
  intros H Hp HD E. destruct power as [a|]; cbn [swt]; rewrite (life_diag p E); [cbn in Hp; apply rpow_0; lra|].
  destruct HD as [[]|HD]. pose proof (max_life_pos x H HD). destruct (Req_EM_T _ _); [lra|reflexivity].
Qed.
Lemma swt_same power x y p : same_off_diagonal x y -> swt power x p = swt power y p.
Proof. intros H. destruct power; cbn [swt]; [reflexivity|]. now rewrite (max_life_same x y H). Qed.
Lemma silv_same power x y s : proper x -> proper y -> pos_p power -> sil_defined power x -> sil_defined power y -> same_off_diagonal x y ->
  silv power x s = silv power y s.
Proof.
  intros Hx Hy Hp Dx Dy H. unfold silv. cbv zeta.
  assert (E1 : rsum (map (swt power x) x) = rsum (map (swt power y) y)).
  { rewrite (rsum_off _ x) by (intros; now apply swt_diag). rewrite (rsum_off _ y) by (intros; now apply swt_diag).
    rewrite (map_ext (swt power x) (swt power y)) by (intros; now apply swt_same). apply rsum_perm. now apply Permutation_map. }
  assert (E2 : rsum (map (fun p => swt power x p * qr (tent s p))%R x) = rsum (map (fun p => swt power y p * qr (tent s p))%R y)).
  { rewrite (rsum_off _ x) by (intros p _ E; rewrite swt_diag by assumption; ring). rewrite (rsum_off _ y) by (intros p _ E; rewrite swt_diag by assumption; ring).
    rewrite (map_ext (fun p => swt power x p * qr (tent s p))%R (fun p => swt power y p * qr (tent s p))%R) by (intros; now rewrite (swt_same power x y)).
    apply rsum_perm. now apply Permutation_map. }
  rewrite E1, E2. reflexivity.
Qed.

(** the value lies between 0 and the largest tent *)
Lemma is_silhouette_bounds power x s v : proper x -> is_silhouette power x s v ->
  (0 <= v)%R /\ (forall t, kth_largest (map (tent s) x) 0 t -> v <= qr t)%R.
Proof.
  intros H [w [Hw [Ev Ez]]].
  assert (Hw0 : forall p, In p x -> (0 <= w p)%R).
  { intros p Hp. specialize (Hw p Hp). destruct power as [a|].
    - rewrite Hw. unfold spow. destruct (Req_EM_T _ _); [lra|]. left. apply exp_pos.
    - destruct Hw as [A B]. destruct (Rle_lt_dec (rmax (map life x)) (life p)) as [M|M].
      + rewrite A; [lra|]. intros q Hq. pose proof (rmax_ge (map life x) (life q) ltac:(now apply in_map)). lra.
      + rewrite B; [lra|]. assert (N : In (rmax (map life x)) (map life x)).
        { apply rmax_attained; [destruct x; [destruct Hp|discriminate]|]. intros u Hu. apply in_map_iff in Hu. destruct Hu as [q [<- Hq]]. now apply (life_nonneg x). }
        apply in_map_iff in N. destruct N as [q [E Hq]]. exists q. rewrite E. auto. }
  assert (HT : forall p, (0 <= qr (tent s p))%R) by (intros p; rewrite <- qr_0; apply qr_le, tent_nonneg).
  change total with rsum in *. clear Hw.
  assert (W0 : (0 <= rsum (map w x))%R).
  { apply rsum_nonneg. intros u Hu. apply in_map_iff in Hu. destruct Hu as [p [<- Hp]]. auto. }
  assert (N0 : (0 <= rsum (map (fun p => w p * qr (tent s p)) x))%R).
  { apply rsum_nonneg. intros u Hu. apply in_map_iff in Hu. destruct Hu as [p [<- Hp]]. specialize (Hw0 p Hp). specialize (HT p). nra. }
  split.
  - destruct (Req_dec (rsum (map w x)) 0) as [Z|Z]; [rewrite Ez by assumption; lra|]. rewrite <- Ev in N0.
    apply (Rmult_le_reg_r (rsum (map w x))); lra.
  - intros t Ht. apply kth_largest_layer in Ht. subst t. set (t := layer (map (tent s) x) 0).
    assert (Ht : forall p, In p x -> (tent s p <= t)%Qc).
    { intros p Hp. pose proof (sort_desc_sorted (map (tent s) x)) as S. pose proof (sort_desc_perm (map (tent s) x)) as P.
      assert (I : In (tent s p) (sort_desc (map (tent s) x))) by (apply (Permutation_in _ (Permutation_sym P)); apply in_map; assumption).
      unfold t, layer. destruct (sort_desc (map (tent s) x)) as [|a l]; [destruct I|]. rewrite Znth_0. destruct I as [<-|I]; [apply Qcle_refl|].
      inversion S as [|? ? _ F]; subst. rewrite Forall_forall in F. now apply F. }
    destruct (Req_dec (rsum (map w x)) 0) as [Z|Z].
    { rewrite Ez by assumption. rewrite <- qr_0. apply qr_le. unfold t, layer. destruct (Znth _ 0) eqn:E; [|apply Qcle_refl].
      apply Znth_In in E. apply (Permutation_in _ (sort_desc_perm _)) in E. apply in_map_iff in E. destruct E as [p [<- _]]. apply tent_nonneg. }
    apply (Rmult_le_reg_r (rsum (map w x))); [lra|]. rewrite Ev. rewrite <- rsum_k. clearbody t. clear - Hw0 Ht HT.
    induction x as [|p x IH]; [cbn; lra|]. cbn [map]. rewrite !rsum_cons. apply Rplus_le_compat.
    + assert (A : (qr (tent s p) <= qr t)%R) by (apply qr_le, Ht; now left). specialize (Hw0 p (or_introl eq_refl)). nra.
    + apply IH; [intros; apply Hw0; now right|]. intros; apply Ht; now right.
Qed.
