(** C56: Derivative. *)
From Verif Require Import Np NpFacts Fl FlFacts VecModel SliceFacts ImgModel ImgProofs2 CurveModel CurveSpec.
Open Scope Z_scope.

Lemma zlen_diff1 x : zlen (diff1 x) = Z.max 0 (zlen x - 1).
Proof.
  unfold diff1. rewrite zlen_map. unfold zlen. rewrite combine_length. destruct x; cbn [tl length]; lia.
Qed.
Lemma Znth_diff1 x i a b : Znth x i = Some a -> Znth x (i + 1) = Some b -> Znth (diff1 x) i = Some (b - a)%Qc.
Proof.
  intros Ha Hb. unfold diff1. rewrite Znth_map. pose proof (Znth_Some_lt _ _ _ Ha).
  rewrite (Znth_combine (tl x) x i b a); auto. destruct x as [|h t]; [cbn in H; lia|].
  cbn [tl]. rewrite Znth_cons in Hb by lia. now replace (i + 1 - 1) with i in Hb by lia.
Qed.
Lemma zlen_np_diff k x : zlen (np_diff k x) = Z.max 0 (zlen x - Z.of_nat k).
Proof.
  induction k as [|k IH].
  - pose proof (zlen_nonneg x). change (np_diff 0 x) with x. lia.
  - change (np_diff (S k) x) with (diff1 (np_diff k x)). rewrite zlen_diff1, IH. lia.
Qed.

(** The sum of a function over 0, ..., n - 1. *)
Definition qsum (n : nat) (f : nat -> Qc) : Qc := fold_right Qcplus 0%Qc (map f (seq 0 n)).
Lemma fold_plus_app l l' : fold_right Qcplus 0%Qc (l ++ l') = (fold_right Qcplus 0 l + fold_right Qcplus 0 l')%Qc.
Proof. induction l as [|a l IH]; cbn [app fold_right]; [ring|]. rewrite IH. ring. Qed.
Lemma qsum_S n f : qsum (S n) f = (qsum n f + f n)%Qc.
Proof. unfold qsum. rewrite seq_S, map_app, fold_plus_app. cbn. ring. Qed.
Lemma qsum_S_front n f : qsum (S n) f = (f O + qsum n (fun m => f (S m)))%Qc.
Proof. unfold qsum. cbn [seq map fold_right]. rewrite <- seq_shift, map_map. reflexivity. Qed.
Lemma qsum_ext n f g : (forall m, (m < n)%nat -> f m = g m) -> qsum n f = qsum n g.
Proof. intro H. unfold qsum. f_equal. apply map_ext_in. intros m Hm. apply in_seq in Hm. apply H. lia. Qed.
Lemma qsum_sub n f g : qsum n (fun m => f m - g m)%Qc = (qsum n f - qsum n g)%Qc.
Proof. induction n as [|n IH]; [cbn; ring|]. rewrite !qsum_S, IH. ring. Qed.

Definition coef (k m : nat) : Z := (-1) ^ Z.of_nat (k - m) * binom k m.
Lemma binom_out k m : (k < m)%nat -> binom k m = 0.
Proof. revert m; induction k as [|k IH]; intros [|m] H; cbn; try lia. rewrite !IH by lia. lia. Qed.
Lemma coef_0 k : coef (S k) 0 = - coef k 0.
Proof.
  unfold coef. rewrite !Nat.sub_0_r. replace (Z.of_nat (S k)) with (Z.succ (Z.of_nat k)) by lia.
  rewrite Z.pow_succ_r by lia. destruct k; cbn [binom]; lia.
Qed.
Lemma coef_S k m : (m <= k)%nat -> coef (S k) (S m) = coef k m - coef k (S m).
Proof.
  intro H. unfold coef. change (S k - S m)%nat with (k - m)%nat. cbn [binom].
  destruct (Nat.eq_dec m k) as [->|N].
  - rewrite Nat.sub_diag, (binom_out k (S k)) by lia. change (Z.of_nat 0) with 0. rewrite Z.pow_0_r. ring.
  - replace (Z.of_nat (k - m)) with (Z.succ (Z.of_nat (k - S m))) by lia. rewrite Z.pow_succ_r by lia. ring.
Qed.
Definition at_ (x : list Qc) (i : Z) : Qc := match Znth x i with Some v => v | None => 0%Qc end.
Lemma alternating_qsum k x i : alternating_sum k x i = qsum (S k) (fun m => (qz (coef k m) * at_ x (i + Z.of_nat m))%Qc).
Proof. reflexivity. Qed.
Lemma alternating_S k x i : alternating_sum (S k) x i = (alternating_sum k x (i + 1) - alternating_sum k x i)%Qc.
Proof.
  rewrite !alternating_qsum.
  rewrite qsum_S_front.
  rewrite (qsum_ext (S k) _ (fun m => (qz (coef k m) * at_ x (i + 1 + Z.of_nat m) - qz (coef k (S m)) * at_ x (i + 1 + Z.of_nat m)))%Qc).
  2:{ intros m Hm. rewrite coef_S by lia. rewrite qz_sub. replace (i + Z.of_nat (S m)) with (i + 1 + Z.of_nat m) by lia. ring. }
  rewrite qsum_sub. rewrite coef_0, qz_opp.
  rewrite (qsum_S_front k (fun m => (qz (coef k m) * at_ x (i + Z.of_nat m))%Qc)).
  rewrite (qsum_S k (fun m => (qz (coef k (S m)) * at_ x (i + 1 + Z.of_nat m))%Qc)).
  replace (coef k (S k)) with 0 by (unfold coef; rewrite binom_out by lia; lia). rewrite qz_0.
  rewrite (qsum_ext k (fun m => (qz (coef k (S m)) * at_ x (i + 1 + Z.of_nat m))%Qc) (fun m => (qz (coef k (S m)) * at_ x (i + Z.of_nat (S m)))%Qc)).
  2:{ intros m _. do 2 f_equal. lia. }
  ring.
Qed.
Lemma np_diff_alternating k x i : 0 <= i < zlen x - Z.of_nat k -> Znth (np_diff k x) i = Some (alternating_sum k x i).
Proof.
  revert i; induction k as [|k IH]; intros i Hi.
  - destruct (Znth_ex x i) as [v Hv]; [lia|]. change (np_diff 0 x) with x.
    rewrite Hv. f_equal. rewrite alternating_qsum. unfold qsum. cbn [seq map fold_right]. unfold at_.
    replace (i + Z.of_nat 0) with i by lia. rewrite Hv. unfold coef. cbn. rewrite qz_1. ring.
  - change (np_diff (S k) x) with (diff1 (np_diff k x)). rewrite alternating_S.
    apply Znth_diff1; apply IH; lia.
Qed.

(** fit accepts exactly the curves longer than the order. *)
Theorem derivative_fit_spec order n_bins :
  (Z.of_nat order < n_bins /\ derivative_fit order n_bins = Ok tt) \/
  (n_bins <= Z.of_nat order /\ derivative_fit order n_bins = Err ValueError).
Proof. unfold derivative_fit. destruct (Z.leb_spec n_bins (Z.of_nat order)); [right|left]; auto. Qed.

(** transform: for each sample and channel, the curve shortened by the order (not below 0), value i
    being the alternating binomial sum of the values i, ..., i + order; for any number of jobs. *)
Definition derivative_of (order : nat) (x x' : list Qc) : Prop :=
  zlen x' = Z.max 0 (zlen x - Z.of_nat order) /\
  forall i, 0 <= i < zlen x' -> Znth x' i = Some (alternating_sum order x i).
Theorem derivative_spec order n_jobs X Xt : 1 <= n_jobs -> X <> [] ->
  (derivative_transform order n_jobs X = Ok Xt <-> Forall2 (Forall2 (derivative_of order)) X Xt).
Proof.
  intros HJ HX. unfold derivative_transform. rewrite parallel_ok by auto.
  assert (D : forall x, derivative_of order x (np_diff order x)).
  { intro x. split; [apply zlen_np_diff|]. intros i Hi. apply np_diff_alternating. rewrite zlen_np_diff in Hi. lia. }
  split.
  - injection 1 as <-. clear - D. induction X as [|c X IH]; cbn; constructor; auto.
    induction c as [|x c IH']; cbn; constructor; auto.
  - intro H. clear HX. f_equal. induction H as [|c c' X Xt Hc H IH]; auto. cbn [map]. f_equal; auto.
    clear - Hc D. induction Hc as [|x x' c c' Hx Hc IH]; auto. cbn [map]. f_equal; auto.
    destruct (D x) as [L1 E1], Hx as [L2 E2]. apply Znth_ext; [congruence|]. intros i Hi.
    rewrite E1 by auto. rewrite E2; auto. congruence.
Qed.
(** On no samples: a ValueError (of check_array). *)
Theorem derivative_empty order n_jobs : derivative_transform order n_jobs [] = Err ValueError.
Proof. reflexivity. Qed.

Example derivative_example :
  derivative_transform 2 3 [[[qz 1; qz 4; qz 9; qz 16]]; [[qz 0; qz 0; qz 1; qz 0]]] = Ok [[[qz 2; qz 2]]; [[qz 1; qz (-2)]]].
Proof. reflexivity. Qed.

Print Assumptions derivative_fit_spec.
Print Assumptions derivative_spec.
