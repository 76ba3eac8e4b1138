(** C72: rounding of node statistics to significant figures. *)
From Coq Require Import Ascii String Qround.
From Verif Require Import Np NpFacts Fl FlFacts VecModel ColorTypes ColorModel ColorSpec MplotTypes MplotModel MplotSpec.
Open Scope Z_scope.

(** ** Powers of ten *)
Lemma qz10_pow n : Qcpower (qz 10) n = qz (10 ^ Z.of_nat n).
Proof.
  induction n as [|n IH]; [cbn; now rewrite qz_1|]. rewrite Nat2Z.inj_succ, Z.pow_succ_r by lia. rewrite qz_mul, <- IH. reflexivity.
Qed.
Lemma ten_pow10 k : ten k = pow10 k.
Proof.
  unfold pow10, ten. destruct k as [|p|p]; cbn [Z.leb Z.compare].
  - now rewrite Z.pow_0_r, qz_1.
  - rewrite qz10_pow. now rewrite positive_nat_Z.
  - rewrite qz10_pow. rewrite positive_nat_Z. reflexivity.
Qed.
Lemma qz_pos z : 0 < z -> (0 < qz z)%Qc.
Proof. intros H. rewrite <- qz_0. now apply qz_lt. Qed.
Lemma Qcinv_pos x : (0 < x)%Qc -> (0 < / x)%Qc.
Proof. intros H. unfold Qclt. rewrite this_inv. apply Qinv_lt_0_compat. exact H. Qed.
Lemma pos_neq (x : Qc) : (0 < x)%Qc -> x <> 0%Qc.
Proof. intros H E. rewrite E in H. now apply (Qclt_not_eq _ _ H). Qed.
Lemma ten_pos k : (0 < ten k)%Qc.
Proof.
  rewrite ten_pow10. unfold pow10. destruct (Z.leb_spec 0 k); [apply qz_pos, Z.pow_pos_nonneg; lia|]. apply Qcinv_pos, qz_pos, Z.pow_pos_nonneg; lia.
Qed.
Lemma ten_0 : ten 0 = 1%Qc. Proof. reflexivity. Qed.
Lemma ten_nonneg k : 0 <= k -> ten k = qz (10 ^ k).
Proof. intros H. rewrite ten_pow10. unfold pow10. now rewrite (proj2 (Z.leb_le _ _) H). Qed.
Lemma ten_succ k : ten (k + 1) = (qz 10 * ten k)%Qc.
Proof.
  rewrite !ten_pow10. unfold pow10. destruct (Z.leb_spec 0 k) as [H|H].
  - rewrite (proj2 (Z.leb_le _ _)) by lia. replace (k + 1) with (Z.succ k) by lia. rewrite Z.pow_succ_r by lia. apply qz_mul.
  - destruct (Z.leb_spec 0 (k + 1)) as [H'|H'].
    + replace k with (-1) by lia. cbn. rewrite qz_1. field. apply pos_neq, qz_pos. lia.
    + replace (- k) with (Z.succ (- (k + 1))) by lia. rewrite Z.pow_succ_r by lia. rewrite qz_mul. field. split; apply pos_neq, qz_pos; [apply Z.pow_pos_nonneg; lia|lia].
Qed.
Lemma ten_add a b : ten (a + b) = (ten a * ten b)%Qc.
Proof.
  assert (S : forall n a, ten (a + Z.of_nat n) = (ten a * ten (Z.of_nat n))%Qc).
  { induction n as [|n IH]; intros a'; [rewrite Z.add_0_r; cbn [Z.of_nat]; rewrite ten_0; now rewrite Qcmult_1_r|].
    rewrite Nat2Z.inj_succ. replace (a' + Z.succ (Z.of_nat n)) with (a' + Z.of_nat n + 1) by lia. replace (Z.succ (Z.of_nat n)) with (Z.of_nat n + 1) by lia.
    rewrite !ten_succ, IH. ring. }
  destruct (Z.le_gt_cases 0 b) as [H|H]; [rewrite <- (Z2Nat.id b) by lia; apply S|].
  assert (E : ten a = (ten (a + b) * ten (- b))%Qc). { pose proof (S (Z.to_nat (- b)) (a + b)) as E'. rewrite Z2Nat.id in E' by lia. rewrite <- E'. f_equal. lia. }
  assert (E1 : (ten b * ten (- b))%Qc = 1%Qc). { pose proof (S (Z.to_nat (- b)) b) as E'. rewrite Z2Nat.id, Z.add_opp_diag_r in E' by lia. now rewrite <- E'. }
  rewrite E. rewrite <- Qcmult_assoc, (Qcmult_comm (ten (- b))), E1. now rewrite Qcmult_1_r.
Qed.
Lemma ten_opp k : (ten k * ten (- k))%Qc = 1%Qc.
Proof. rewrite <- ten_add. now rewrite Z.add_opp_diag_r. Qed.
Lemma ten_lt a b : a < b -> (ten a < ten b)%Qc.
Proof.
  intros H. replace b with (a + (b - a)) by lia. rewrite ten_add. pose proof (ten_pos a). rewrite (ten_nonneg (b - a)) by lia.
  assert (P : 1 < 10 ^ (b - a)) by (apply Z.pow_gt_1; lia). rewrite <- qz_lt, qz_1 in P. rewrite <- (Qcmult_1_r (ten a)) at 1. rewrite !(Qcmult_comm (ten a)). now apply Qcmult_lt_compat_r.
Qed.
Lemma ten_le a b : a <= b -> (ten a <= ten b)%Qc.
Proof. intros H. destruct (Z.eq_dec a b) as [->|N]; [apply Qcle_refl|]. apply Qclt_le_weak, ten_lt. lia. Qed.
Lemma ten_between e e' x : (ten e <= x)%Qc -> (x < ten (e + 1))%Qc -> (ten e' <= x)%Qc -> (x < ten (e' + 1))%Qc -> e = e'.
Proof.
  intros A B A' B'. destruct (Z.lt_trichotomy e e') as [L|[E|L]]; [|assumption|]; exfalso.
  - apply (Qcle_not_lt _ _ A'). apply (Qclt_le_trans _ _ _ B). apply ten_le. lia.
  - apply (Qcle_not_lt _ _ A). apply (Qclt_le_trans _ _ _ B'). apply ten_le. lia.
Qed.

(** ** The exponent *)
Lemma log_up_ok fuel : forall e x, (ten e <= x)%Qc -> (x < ten (e + 1 + Z.of_nat fuel))%Qc ->
  (ten (log_up fuel e x) <= x)%Qc /\ (x < ten (log_up fuel e x + 1))%Qc.
Proof.
  induction fuel as [|fuel IH]; intros e x L U; cbn [log_up].
  - rewrite Z.add_0_r in U. auto.
  - destruct (Qcleb_spec (pow10 (e + 1)) x) as [H|H]; rewrite <- ten_pow10 in H.
    + apply IH; [assumption|]. now replace (e + 1 + 1 + Z.of_nat fuel) with (e + 1 + Z.of_nat (S fuel)) by lia.
    + split; [assumption|]. now apply Qcnot_le_lt.
Qed.
Lemma log_down_ok fuel : forall e x, (x < ten (e + 1))%Qc -> (ten (e - Z.of_nat fuel) <= x)%Qc ->
  (ten (log_down fuel e x) <= x)%Qc /\ (x < ten (log_down fuel e x + 1))%Qc.
Proof.
  induction fuel as [|fuel IH]; intros e x U L; cbn [log_down].
  - rewrite Z.sub_0_r in L. auto.
  - destruct (Qcleb_spec (pow10 e) x) as [H|H]; rewrite <- ten_pow10 in H.
    + auto.
    + apply IH; [replace (e - 1 + 1) with e by lia; now apply Qcnot_le_lt|]. now replace (e - 1 - Z.of_nat fuel) with (e - Z.of_nat (S fuel)) by lia.
Qed.
Lemma lt_pow10 n : 0 <= n -> n < 10 ^ n.
Proof. intros H. apply Z.pow_gt_lin_r; lia. Qed.
Lemma floor_log10_ok x : (0 < x)%Qc -> (ten (floor_log10 x) <= x)%Qc /\ (x < ten (floor_log10 x + 1))%Qc.
Proof.
  intros P. unfold floor_log10.
  assert (N : 0 < Qnum x). { unfold Qclt, Qlt in P. change (Qnum (this 0%Qc)) with 0 in P. change (QDen (this 0%Qc)) with 1 in P. lia. }
  assert (Hn : (x <= qz (Qnum x))%Qc). { unfold Qcle. rewrite this_qz. unfold Qle, inject_Z; cbn [Qnum Qden]. assert (1 <= QDen x) by lia. nia. }
  assert (Hd : (/ qz (QDen x) <= x)%Qc). { unfold Qcle. rewrite this_inv, this_qz. unfold Qle, Qinv, inject_Z; cbn [Qnum Qden]. nia. }
  destruct (Qcleb_spec 1%Qc x) as [H|H].
  - apply log_up_ok; [assumption|]. rewrite Z2Nat.id by lia. eapply Qcle_lt_trans; [exact Hn|]. rewrite ten_nonneg by lia. apply qz_lt.
    eapply Z.lt_le_trans; [apply (lt_pow10 (Qnum x)); lia|]. apply Z.pow_le_mono_r; lia.
  - apply log_down_ok; [now apply Qcnot_le_lt|]. rewrite positive_nat_Z. eapply Qcle_trans; [|exact Hd].
    pose proof (ten_opp (-1 - QDen x)) as E. rewrite (ten_nonneg (- (-1 - QDen x))) in E by lia. pose proof (ten_pos (-1 - QDen x)) as T.
    assert (D : (qz (QDen x) <= qz (10 ^ (- (-1 - QDen x))))%Qc). { apply qz_le. eapply Z.le_trans; [apply Z.lt_le_incl, (lt_pow10 (QDen x)); lia|]. apply Z.pow_le_mono_r; lia. }
    pose proof (qz_pos (QDen x) ltac:(lia)) as Q. pose proof (Qcinv_pos _ Q) as Q'.
    assert (I : (qz (QDen x) * / qz (QDen x))%Qc = 1%Qc) by (apply Qcmult_inv_r; now apply pos_neq).
    pose proof (Qcmult_le_compat_r _ _ (ten (-1 - QDen x)) D (Qclt_le_weak _ _ T)) as D'. rewrite (Qcmult_comm (qz (10 ^ _))), E in D'.
    pose proof (Qcmult_le_compat_r _ _ (/ qz (QDen x)) D' (Qclt_le_weak _ _ Q')) as D''. rewrite Qcmult_1_l in D''.
    replace (ten (-1 - QDen x)) with (qz (QDen x) * ten (-1 - QDen x) * / qz (QDen x))%Qc; [assumption|].
    rewrite (Qcmult_comm (qz (QDen x))), <- Qcmult_assoc, I. apply Qcmult_1_r.
Qed.

(** ** Nearest integer and nearest multiple *)
Lemma rint_ok x : exists d, magnitude (x - qz (rint x)) d /\ (qz 2 * d <= 1)%Qc /\ ((qz 2 * d)%Qc = 1%Qc -> Z.even (rint x) = true).
Proof.
  unfold rint. assert (L : (qz (Qfloor x) <= x)%Qc) by (unfold Qcle; rewrite this_qz; apply Qfloor_le).
  assert (U : (x < qz (Qfloor x + 1))%Qc) by (unfold Qclt; rewrite this_qz; apply Qlt_floor).
  assert (HH : (qz 2 * Q2Qc (1 # 2))%Qc = 1%Qc) by (apply Qc_is_canon; reflexivity). assert (H2 : qz 2 = (1 + 1)%Qc) by (apply Qc_is_canon; reflexivity).
  rewrite H2 in *. set (h := Q2Qc (1 # 2)) in *. clearbody h. remember (Qfloor x) as n eqn:En. clear En. rewrite qz_add, qz_1 in U.
  destruct (Qcltb_spec (x - qz n) h) as [A|A]; [|apply Qcnot_lt_le in A; destruct (Qcltb_spec h (x - qz n)) as [B|B]; [|apply Qcnot_lt_le in B]].
  - exists (x - qz n)%Qc. split; [left; split; [qlra|reflexivity]|]. split; [qlra|]. intros E. exfalso. qlra.
  - exists (- (x - qz (n + 1)))%Qc. rewrite qz_add, qz_1. split; [right; split; [qlra|reflexivity]|]. split; [qlra|]. intros E. exfalso. qlra.
  - destruct (Z.even n) eqn:Ev.
    + exists (x - qz n)%Qc. split; [left; split; [qlra|reflexivity]|]. split; [qlra|auto].
    + exists (- (x - qz (n + 1)))%Qc. rewrite qz_add, qz_1. split; [right; split; [qlra|reflexivity]|]. split; [qlra|]. intros _. now rewrite Z.even_add, Ev.
Qed.
Lemma magnitude_nonneg x d : magnitude x d -> (0 <= d)%Qc.
Proof. intros [[A ->]|[A ->]]; qlra. Qed.
Lemma magnitude_mul x d u : (0 < u)%Qc -> magnitude x d -> magnitude (x * u) (d * u).
Proof.
  intros P [[A ->]|[A ->]]; [left|right]; split; try ring.
  - rewrite <- (Qcmult_0_l u). apply Qcmult_le_compat_r; [assumption|now apply Qclt_le_weak].
  - rewrite <- (Qcmult_0_l u). now apply Qcmult_lt_compat_r.
Qed.
Lemma np_round_ok x k : nearest_multiple (ten (- k)) x (np_round x k).
Proof.
  unfold np_round. destruct (rint_ok (x * pow10 k)) as [d [M [L Ev]]]. exists (rint (x * pow10 k)), (d * ten (- k))%Qc. rewrite <- !ten_pow10 in *.
  pose proof (ten_pos (- k)) as P. pose proof (ten_opp k) as E.
  split; [reflexivity|]. split; [|split].
  - replace (x - qz (rint (x * ten k)) * ten (- k))%Qc with ((x * ten k - qz (rint (x * ten k))) * ten (- k))%Qc; [now apply magnitude_mul|].
    transitivity (x * (ten k * ten (- k)) - qz (rint (x * ten k)) * ten (- k))%Qc; [ring|]. rewrite E. ring.
  - rewrite Qcmult_assoc. rewrite <- (Qcmult_1_l (ten (- k))) at 2. apply Qcmult_le_compat_r; [assumption|now apply Qclt_le_weak].
  - intros E'. apply Ev. rewrite Qcmult_assoc in E'. rewrite <- (Qcmult_1_l (ten (- k))) in E' at 2.
    apply (f_equal (fun z => z * / ten (- k)))%Qc in E'. rewrite <- !Qcmult_assoc in E'. rewrite Qcmult_inv_r in E' by now apply pos_neq. now rewrite !Qcmult_1_r in E'.
Qed.
Lemma qabs_ok x : magnitude x (qabs x).
Proof. unfold qabs. destruct (Qcleb_spec 0%Qc x) as [H|H]; [left; auto|right]. split; [now apply Qcnot_le_lt|reflexivity]. Qed.
Lemma magnitude_pos x d : magnitude x d -> x <> 0%Qc -> (0 < d)%Qc.
Proof.
  intros [[A ->]|[A ->]] N; [|qlra]. destruct (Qcle_lt_or_eq _ _ A) as [L|E]; [assumption|]. exfalso. now apply N.
Qed.

(** What is shown is the statistic rounded as asked. *)
Theorem round_shows x n : shows n x (round_to_n_sig_figs x n).
Proof.
  unfold shows, round_to_n_sig_figs. destruct n as [n|]; [|reflexivity]. destruct (Qceqb_spec x 0%Qc) as [->|N]; [left; auto|right].
  split; [assumption|]. eexists. split; [reflexivity|]. pose proof (qabs_ok x) as M. destruct (floor_log10_ok (qabs x) (magnitude_pos _ _ M N)) as [L U].
  exists (floor_log10 (qabs x)), (qabs x). split; [assumption|]. split; [assumption|]. split; [assumption|].
  replace (floor_log10 (qabs x) - n + 1) with (- (- floor_log10 (qabs x) + (n - 1))) by lia. apply np_round_ok.
Qed.
Lemma qc2 : qz 2 = (1 + 1)%Qc. Proof. apply Qc_is_canon. reflexivity. Qed.
Lemma magnitude_bounds x d : magnitude x d -> (x <= d)%Qc /\ (- d <= x)%Qc.
Proof. intros [[A ->]|[A ->]]; split; qlra. Qed.
Lemma magnitude_unique x d d' : magnitude x d -> magnitude x d' -> d = d'.
Proof. intros [[A ->]|[A ->]] [[A' ->]|[A' ->]]; try reflexivity; exfalso; qlra. Qed.
Lemma Qc_mul_le_inv u a b : (0 < u)%Qc -> (a * u <= b * u)%Qc -> (a <= b)%Qc.
Proof. intros P H. apply Qcnot_lt_le. intros L. apply (Qcle_not_lt _ _ H). now apply Qcmult_lt_compat_r. Qed.
Lemma nearest_multiple_unique u x r r' : (0 < u)%Qc -> nearest_multiple u x r -> nearest_multiple u x r' -> r = r'.
Proof.
  intros P [m [d [-> [M [L Ev]]]]] [m' [d' [-> [M' [L' Ev']]]]]. rewrite qc2 in *.
  destruct (magnitude_bounds _ _ M) as [A B], (magnitude_bounds _ _ M') as [A' B'].
  assert (D1 : (qz (m - m') * u <= 1 * u)%Qc) by (rewrite qz_sub; qlra). assert (D2 : (qz (m' - m) * u <= 1 * u)%Qc) by (rewrite qz_sub; qlra).
  apply (Qc_mul_le_inv u _ _ P) in D1. apply (Qc_mul_le_inv u _ _ P) in D2. rewrite <- qz_1 in D1, D2. rewrite qz_le in D1, D2.
  assert (C : m = m' \/ m = m' + 1 \/ m' = m + 1) by lia. destruct C as [->|[->| ->]]; [reflexivity| |]; exfalso.
  - assert (E1 : ((1 + 1) * d)%Qc = u) by (rewrite qz_add, qz_1 in *; qlra). assert (E2 : ((1 + 1) * d')%Qc = u) by (rewrite qz_add, qz_1 in *; qlra).
    specialize (Ev E1). specialize (Ev' E2). rewrite Z.even_add, Ev' in Ev. discriminate.
  - assert (E1 : ((1 + 1) * d)%Qc = u) by (rewrite qz_add, qz_1 in *; qlra). assert (E2 : ((1 + 1) * d')%Qc = u) by (rewrite qz_add, qz_1 in *; qlra).
    specialize (Ev E1). specialize (Ev' E2). rewrite Z.even_add, Ev in Ev'. discriminate.
Qed.
Lemma sig_rounded_unique n x r r' : sig_rounded n x r -> sig_rounded n x r' -> r = r'.
Proof.
  intros [e [a [M [L [U H]]]]] [e' [a' [M' [L' [U' H']]]]]. rewrite <- (magnitude_unique _ _ _ M M') in *. rewrite <- (ten_between e e' a L U L' U') in *.
  exact (nearest_multiple_unique _ _ _ _ (ten_pos _) H H').
Qed.
(** The shown number is determined by the statistic. *)
Theorem shows_unique n x s s' : shows n x s -> shows n x s' -> s = s'.
Proof.
  unfold shows. destruct n as [n|]; [|congruence]. intros [[E ->]|[N [r [-> H]]]] [[E' ->]|[N' [r' [-> H']]]]; try contradiction; [reflexivity|].
  f_equal. exact (sig_rounded_unique _ _ _ _ H H').
Qed.
(** The error is at most half a unit of the last figure. *)
Theorem sig_rounded_error n x r a d : sig_rounded n x r -> magnitude x a -> magnitude (x - r) d ->
  (qz 2 * d <= a * ten (1 - n))%Qc.
Proof.
  intros [e [a' [M [L [U [m [d' [-> [M' [L' _]]]]]]]]]] Ma Md. rewrite (magnitude_unique _ _ _ Ma M), (magnitude_unique _ _ _ Md M').
  eapply Qcle_trans; [exact L'|]. replace (e - n + 1) with (e + (1 - n)) by lia. rewrite ten_add. apply Qcmult_le_compat_r; [assumption|]. apply Qclt_le_weak, ten_pos.
Qed.
Lemma qz_abs_magnitude m u : (0 < u)%Qc -> magnitude (qz m * u) (qz (Z.abs m) * u).
Proof.
  intros P. apply magnitude_mul; [assumption|]. destruct (Z.le_gt_cases 0 m) as [H|H].
  - left. rewrite Z.abs_eq by lia. split; [|reflexivity]. rewrite <- qz_0. now apply qz_le.
  - right. rewrite Z.abs_neq by lia. split; [rewrite <- qz_0; now apply qz_lt|]. now rewrite qz_opp.
Qed.
Lemma magnitude_tri x y a b d : magnitude x a -> magnitude y b -> magnitude (x - y) d -> (a <= b + d)%Qc /\ (b <= a + d)%Qc.
Proof. intros [[A ->]|[A ->]] [[B ->]|[B ->]] [[C ->]|[C ->]]; split; qlra. Qed.
(** Rounding again changes nothing. *)
Theorem shows_again n x r : 1 <= n -> shows (Some n) x (Num r) -> shows (Some n) r (Num r).
Proof.
  intros Hn [[_ H]|[N [r' [[= <-] [e [a [M [L [U [m [d [-> [M' [L' Ev]]]]]]]]]]]]]]; [discriminate|]. right. set (u := ten (e - n + 1)) in *.
  assert (P : (0 < u)%Qc) by apply ten_pos. pose proof (qz_abs_magnitude m u P) as Mm. destruct (magnitude_tri _ _ _ _ _ M Mm M') as [T1 T2].
  assert (Elo : ten e = (qz (10 ^ (n - 1)) * u)%Qc). { unfold u. rewrite <- ten_nonneg by lia. rewrite <- ten_add. f_equal. lia. }
  assert (Ehi : ten (e + 1) = (qz (10 ^ n) * u)%Qc). { unfold u. rewrite <- ten_nonneg by lia. rewrite <- ten_add. f_equal. lia. }
  assert (B1 : 10 ^ (n - 1) <= Z.abs m).
  { assert (H : (qz (2 * 10 ^ (n - 1)) * u <= qz (2 * Z.abs m + 1) * u)%Qc) by (rewrite qz_add, !qz_mul, qz_1; rewrite qc2 in *; rewrite Elo in L; qlra).
    apply (Qc_mul_le_inv _ _ _ P) in H. rewrite qz_le in H. lia. }
  assert (B2 : Z.abs m <= 10 ^ n).
  { assert (H : (qz (2 * Z.abs m) * u <= qz (2 * 10 ^ n + 1) * u)%Qc) by (rewrite qz_add, !qz_mul, qz_1; rewrite qc2 in *; rewrite Ehi in U; qlra).
    apply (Qc_mul_le_inv _ _ _ P) in H. rewrite qz_le in H. lia. }
  assert (P1 : 0 < 10 ^ (n - 1)) by (apply Z.pow_pos_nonneg; lia).
  assert (Lr : (ten e <= qz (Z.abs m) * u)%Qc). { rewrite Elo. apply Qcmult_le_compat_r; [now apply qz_le|now apply Qclt_le_weak]. }
  assert (D0 : forall r, magnitude (r - r) 0%Qc) by (intros r; left; split; [qlra|ring]). assert (Z0 : forall u, (0 < u)%Qc -> (qz 2 * 0 <= u)%Qc) by (intros; rewrite qc2; qlra).
  assert (Nr : (qz m * u)%Qc <> 0%Qc). { intros E. rewrite E in Mm. assert (E0 : (qz (Z.abs m) * u)%Qc = 0%Qc) by (destruct Mm as [[_ ->]|[_ ->]]; ring). rewrite E0 in Lr. apply (Qcle_not_lt _ _ Lr), ten_pos. }
  split; [assumption|]. eexists. split; [reflexivity|]. destruct (Z.eq_dec (Z.abs m) (10 ^ n)) as [Em|Em].
  - exists (e + 1), (qz (Z.abs m) * u)%Qc. split; [assumption|]. rewrite Em, <- Ehi. split; [apply Qcle_refl|]. split; [apply ten_lt; lia|].
    exists (Z.sgn m * 10 ^ (n - 1)), 0%Qc. split; [|split; [apply D0|split; [apply Z0, ten_pos|]]].
    + replace (e + 1 - n + 1) with (1 + (e - n + 1)) by lia. rewrite ten_add. fold u. replace m with (Z.sgn m * 10 ^ n) at 1 by (rewrite <- Em; destruct m; cbn; lia). replace (10 ^ n) with (10 ^ (n - 1) * 10). 2:{ replace n with (Z.succ (n - 1)) at 2 by lia. rewrite Z.pow_succ_r by lia. lia. }
      rewrite !qz_mul. change (ten 1) with (qz 10). ring.
    + intros E. exfalso. apply (pos_neq _ (ten_pos (e + 1 - n + 1))). rewrite <- E. ring.
  - exists e, (qz (Z.abs m) * u)%Qc. split; [assumption|]. split; [assumption|]. split; [rewrite Ehi; apply Qcmult_lt_compat_r; [assumption|apply qz_lt; lia]|].
    exists m, 0%Qc. split; [reflexivity|]. split; [apply D0|]. split; [now apply Z0|]. intros E. exfalso. apply (pos_neq _ P). fold u in E. rewrite <- E. ring.
Qed.
Example round_ex : map (fun x => match round_to_n_sig_figs x (Some 3) with Num q => Some (this q) | Zero => None end)
    [Q2Qc (123456 # 100); Q2Qc (-9996 # 10000000); 0%Qc; Q2Qc (5 # 4)] =
  [Some (1230 # 1); Some (-1 # 1000); None; Some (5 # 4)].
Proof. vm_compute. reflexivity. Qed.
Print Assumptions round_shows.
Print Assumptions shows_unique.
Print Assumptions sig_rounded_error.
Print Assumptions shows_again.
