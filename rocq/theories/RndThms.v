(** Theorems about the models with rounding (C84, C85). *)
From Coq Require Import Reals Lra Psatz.
From Flocq Require Import Core Relative Plus_error.
From Verif Require Import Np NpFacts RndModel RndSpec.
Open Scope R_scope.

Section Format.
Variables emin prec : Z.
Hypothesis Hprec : (3 < prec)%Z.
Hypothesis Hemin : (emin + 2 * prec <= 0)%Z.
Local Notation fexp := (FLT_exp emin prec).
Local Notation rnd := (nearest emin prec).
Local Notation u := (unit_roundoff prec).
Local Notation num := (number emin prec).
Local Notation eta := (bpow radix2 (emin - 1)).

Local Instance Hp0 : Prec_gt_0 prec. Proof. unfold Prec_gt_0. lia. Qed.
Local Instance Hvalid : Valid_exp fexp. Proof. apply FLT_exp_valid. exact Hp0. Qed.

Lemma num_format x : num x <-> generic_format radix2 fexp x.
Proof.
  split.
  - intros [m [e [-> [Hm He]]]]. apply generic_format_FLT. exists (Float radix2 m e); [reflexivity|exact Hm|exact He].
  - intros H. apply FLT_format_generic in H; [|exact Hp0]. destruct H as [[m e] E Hm He]. exists m, e. now split.
Qed.
Lemma rnd_num x : num (rnd x).
Proof. apply num_format. apply generic_format_round; typeclasses eauto. Qed.
Lemma rnd_id x : num x -> rnd x = x.
Proof. intros H. apply round_generic; [typeclasses eauto|now apply num_format]. Qed.
Lemma rnd_le x y : x <= y -> rnd x <= rnd y.
Proof. intros H. apply round_le; [typeclasses eauto..|exact H]. Qed.
Lemma rnd_0 : rnd 0 = 0.
Proof. apply round_0. typeclasses eauto. Qed.
Lemma rnd_opp x : rnd (- x) = - rnd x.
Proof. apply round_NE_opp. Qed.
Lemma rnd_pos x : 0 <= x -> 0 <= rnd x.
Proof. intros H. rewrite <- rnd_0. now apply rnd_le. Qed.
Lemma rnd_upper x y : num y -> x <= y -> rnd x <= y.
Proof. intros N H. rewrite <- (rnd_id y N). now apply rnd_le. Qed.
Lemma rnd_lower x y : num y -> y <= x -> y <= rnd x.
Proof. intros N H. rewrite <- (rnd_id y N). now apply rnd_le. Qed.
Lemma num_IZR k : (emin <= 0)%Z -> (Z.abs k <= 2 ^ prec)%Z -> num (IZR k).
Proof.
  intros H0 H. destruct (Z.eq_dec (Z.abs k) (2 ^ prec)) as [E|N].
  - assert (P2 : (2 ^ prec = 2 * 2 ^ (prec - 1))%Z) by (rewrite <- Z.pow_succ_r by lia; f_equal; lia).
    assert (0 < 2 ^ (prec - 1))%Z by (apply Z.pow_pos_nonneg; lia).
    exists (Z.sgn k * 2 ^ (prec - 1))%Z, 1%Z. change (bpow radix2 1) with (IZR 2). rewrite <- mult_IZR. split; [f_equal; nia|]. split; [nia|lia].
  - exists k, 0%Z. cbn [bpow]. split; [ring|]. split; [lia|exact H0].
Qed.
Lemma num_opp x : num x -> num (- x).
Proof. intros H. apply num_format. apply generic_format_opp. now apply num_format. Qed.
Lemma u_pos : 0 < u. Proof. apply bpow_gt_0. Qed.
Lemma u_small : u <= / 16.
Proof. unfold unit_roundoff. change (/ 16) with (bpow radix2 (-4)). apply bpow_le. lia. Qed.
Lemma eta_pos : 0 < eta. Proof. apply bpow_gt_0. Qed.
Lemma eta_small : eta <= u * u / 2.
Proof.
  unfold unit_roundoff. rewrite <- bpow_plus. replace (bpow radix2 (- prec + - prec) / 2) with (bpow radix2 (- prec + - prec - 1)).
  - apply bpow_le. lia.
  - unfold Zminus. rewrite (bpow_plus _ (- prec + - prec)). change (bpow radix2 (- (1))) with (/ 2). reflexivity.
Qed.
Lemma half_bpow : / 2 * bpow radix2 (- prec + 1) = u.
Proof. unfold unit_roundoff. rewrite bpow_plus. change (bpow radix2 1) with 2. field. Qed.
Lemma half_emin : / 2 * bpow radix2 emin = eta.
Proof. replace emin with (emin - 1 + 1)%Z at 1 by ring. rewrite bpow_plus. change (bpow radix2 1) with 2. field. Qed.
Lemma rnd_err x : Rabs (rnd x - x) <= u * Rabs x + eta.
Proof.
  destruct (error_N_FLT radix2 emin prec Hp0 (fun z => negb (Z.even z)) x) as [e [t [He [Ht [_ E]]]]].
  rewrite half_bpow in He. rewrite half_emin in Ht. unfold nearest. rewrite E.
  replace (x * (1 + e) + t - x) with (e * x + t) by ring. eapply Rle_trans; [apply Rabs_triang|]. rewrite Rabs_mult.
  pose proof (Rabs_pos x). nra.
Qed.
(** no underflow in sums *)
Lemma sum_err x y : num x -> num y -> Rabs (rnd (x + y) - (x + y)) <= u * Rabs (x + y).
Proof.
  intros Nx Ny. apply num_format in Nx, Ny. destruct (Rle_or_lt (bpow radix2 (emin + prec - 1)) (Rabs (x + y))) as [H|H].
  - rewrite <- half_bpow. apply relative_error_N_FLT; [exact Hp0|exact H].
  - rewrite rnd_id. { rewrite Rminus_diag_eq, Rabs_R0 by reflexivity. pose proof u_pos. pose proof (Rabs_pos (x + y)). nra. }
    apply num_format. apply FLT_format_plus_small; [exact Hp0|exact Nx|exact Ny|]. apply Rlt_le. eapply Rlt_le_trans; [exact H|]. apply bpow_le. lia.
Qed.
Lemma diff_err x y : num x -> num y -> Rabs (rnd (x - y) - (x - y)) <= u * Rabs (x - y).
Proof. intros Nx Ny. apply (sum_err x (- y) Nx (num_opp _ Ny)). Qed.
Lemma diff_pos x y : num x -> num y -> x < y -> 0 < rnd (y - x).
Proof.
  intros Nx Ny H. assert (0 <= rnd (y - x)) by (apply rnd_pos; lra). pose proof (diff_err y x Ny Nx) as E. rewrite (Rabs_pos_eq (y - x)) in E by lra.
  pose proof u_small. assert (rnd (y - x) - (y - x) >= - (u * (y - x))). { pose proof (Rle_abs (- (rnd (y - x) - (y - x)))). rewrite Rabs_Ropp in *. lra. } nra.
Qed.

(** ** C84: diagrams *)
Theorem scaler_rounding s b d b' d' : 0 < s ->
  let (sb, sd) := scale_point rnd s (b, d) in let (ub, ud) := unscale_point rnd s (b, d) in
  (num sb /\ num sd /\ num ub /\ num ud) /\
  (b <= d -> sb <= sd /\ ub <= ud) /\ (b = d -> sb = sd /\ ub = ud) /\ (0 <= b -> 0 <= sb /\ 0 <= ub) /\
  (b <= b' -> sb <= fst (scale_point rnd s (b', d')) /\ ub <= fst (unscale_point rnd s (b', d'))) /\
  (d <= d' -> sd <= snd (scale_point rnd s (b', d')) /\ ud <= snd (unscale_point rnd s (b', d'))).
Proof.
  intros Hs. cbn [scale_point unscale_point fst snd].
  assert (D : forall x y, x <= y -> rnd (x / s) <= rnd (y / s)). { intros x y H. apply rnd_le. apply Rmult_le_compat_r; [|exact H]. apply Rlt_le, Rinv_0_lt_compat, Hs. }
  assert (Mu : forall x y, x <= y -> rnd (x * s) <= rnd (y * s)). { intros x y H. apply rnd_le. apply Rmult_le_compat_r; [lra|exact H]. }
  split; [repeat split; apply rnd_num|]. split; [auto|]. split; [intros ->; auto|]. split; [|auto].
  intros H. split; apply rnd_pos; [|nra]. apply Rmult_le_pos; [exact H|]. apply Rlt_le, Rinv_0_lt_compat, Hs.
Qed.
Lemma rnd_near x y E X : Rabs (x - y) <= E -> Rabs y <= X -> Rabs (rnd x - y) <= E + u * (X + E) + eta.
Proof.
  intros H HX. pose proof (rnd_err x) as R. pose proof u_pos.
  assert (Rabs x <= X + E). { replace x with (y + (x - y)) by ring. eapply Rle_trans; [apply Rabs_triang|]. lra. }
  replace (rnd x - y) with ((rnd x - x) + (x - y)) by ring. eapply Rle_trans; [apply Rabs_triang|]. nra.
Qed.
Lemma abs_le x y : - y <= x <= y -> Rabs x <= y.
Proof. intros H. now apply Rabs_le. Qed.
Lemma abs_inv x y : Rabs x <= y -> - y <= x <= y.
Proof. intros H. split; [|exact (Rle_trans _ _ _ (Rle_abs x) H)]. pose proof (Rle_abs (- x)). rewrite Rabs_Ropp in *. lra. Qed.

(** Scaling back and forth changes a value by at most two roundings. *)
Theorem scaler_roundtrip_rounding s x : 0 < s ->
  Rabs (fst (unscale_point rnd s (scale_point rnd s (x, x))) - x) <= (2 * u + u * u) * Rabs x + (1 + s * (1 + u)) * bpow radix2 (emin - 1).
Proof.
  intros Hs. cbn [scale_point unscale_point fst snd]. pose proof u_pos. pose proof eta_pos.
  assert (E1 : Rabs (rnd (x / s) * s - x) <= u * Rabs x + s * eta).
  { replace (rnd (x / s) * s - x) with ((rnd (x / s) - x / s) * s) by (field; lra). rewrite Rabs_mult, (Rabs_pos_eq s) by lra.
    pose proof (rnd_err (x / s)) as E. unfold Rdiv in *. rewrite Rabs_mult, (Rabs_pos_eq (/ s)) in E by (apply Rlt_le, Rinv_0_lt_compat, Hs).
    apply (Rmult_le_compat_r s) in E; [|lra]. replace ((u * (Rabs x * / s) + eta) * s) with (u * Rabs x + s * eta) in E by (field; lra). exact E. }
  pose proof (rnd_near _ _ _ _ E1 (Rle_refl _)) as E2. nra.
Qed.

Lemma survives_iff cutoff p : survives rnd cutoff p = true <-> cutoff < rnd (snd p - fst p).
Proof. unfold survives. destruct (Rlt_dec _ _); split; easy. Qed.
(** Filtering keeps no point that lives at most [cutoff], and drops none that lives longer by more
    than one rounding; without a cutoff it keeps exactly the points off the diagonal; it never
    keeps a point and drops one that lives longer. *)
Theorem filtering_rounding cutoff b d : num cutoff -> num b -> num d -> 0 <= cutoff ->
  (survives rnd cutoff (b, d) = true -> cutoff < d - b) /\
  (cutoff < (1 - u) * (d - b) -> survives rnd cutoff (b, d) = true) /\
  (survives rnd 0 (b, d) = true <-> b < d) /\
  (forall b' d', d - b <= d' - b' -> survives rnd cutoff (b, d) = true -> survives rnd cutoff (b', d') = true).
Proof.
  intros Nc Nb Nd Hc. rewrite !survives_iff. cbn [fst snd]. pose proof u_pos. pose proof u_small. split; [|split; [|split]].
  - intros H1. apply Rnot_le_lt. intros H2. apply (rnd_upper _ _ Nc) in H2. lra.
  - intros H1. assert (0 < d - b) by nra. pose proof (abs_inv _ _ (diff_err d b Nd Nb)) as E. rewrite Rabs_pos_eq in E by lra. lra.
  - split; [|apply (diff_pos b d Nb Nd)]. intros H1. apply Rnot_le_lt. intros H2. assert (rnd (d - b) <= rnd 0) by (apply rnd_le; lra). rewrite rnd_0 in *. lra.
  - intros b' d' H1 H2. apply survives_iff in H2. apply survives_iff. cbn [fst snd] in *. eapply Rlt_le_trans; [exact H2|]. now apply rnd_le.
Qed.
Lemma num_double x : num x -> num (2 * x).
Proof. intros [m [e [-> [Hm He]]]]. exists m, (e + 1)%Z. rewrite bpow_plus. change (bpow radix2 1) with 2. split; [ring|]. split; [exact Hm|lia]. Qed.
Lemma height_le b d : b <= d -> 0 <= rnd (rnd (d - b) / 2).
Proof. intros H. apply rnd_pos. assert (0 <= rnd (d - b)) by (apply rnd_pos; lra). lra. Qed.
(** Landscapes and silhouettes: the fiber of a point at [s] is nonnegative and at most half its
    lifetime, zero for diagonal points, and within the rounding errors of its exact value. *)
Theorem fiber_rounding s b d m : num s -> num b -> num d -> b <= d -> Rabs s <= m -> Rabs b <= m -> Rabs d <= m ->
  0 <= fiber rnd s (b, d) <= rnd (rnd (d - b) / 2) /\
  (b = d -> fiber rnd s (b, d) = 0) /\
  Rabs (fiber rnd s (b, d) - Rmax 0 (Rmin (s - b) (d - s))) <= 12 * (u * m) + 5 * bpow radix2 (emin - 1).
Proof.
  intros Ns Nb Nd Hbd Hs Hb Hd. unfold fiber. cbn [fst snd]. pose proof (height_le b d Hbd) as H0. pose proof u_pos as Up. pose proof u_small as Us. pose proof eta_pos as Ep.
  split; [|split].
  - split; [apply Rmax_r|]. apply Rmax_lub; [|exact H0]. apply rnd_upper; [apply rnd_num|]. pose proof (Rabs_pos (rnd (s - rnd (rnd (d + b) / 2)))). lra.
  - intros ->. rewrite (Rminus_diag_eq d d) by reflexivity. rewrite rnd_0. unfold Rdiv. rewrite Rmult_0_l, rnd_0, Rplus_0_r. apply Rmax_right. rewrite rnd_opp.
    pose proof (rnd_pos _ (Rabs_pos (rnd (s - rnd (rnd (d + d) * / 2))))). lra.
  - apply abs_inv in Hs, Hb, Hd. assert (Hm : 0 <= m) by lra.
    assert (Um : 0 <= u * m) by nra. assert (Umm : u * (u * m) <= u * m / 16) by nra. assert (Ue : 0 <= u * eta <= eta / 16) by nra.
    assert (A1 : Rabs (rnd (d + b) - (d + b)) <= u * (2 * m)). { eapply Rle_trans; [apply (sum_err d b Nd Nb)|]. apply Rmult_le_compat_l; [lra|]. apply abs_le. lra. }
    assert (A2 : Rabs (rnd (d - b) - (d - b)) <= u * (2 * m)). { eapply Rle_trans; [apply (diff_err d b Nd Nb)|]. apply Rmult_le_compat_l; [lra|]. apply abs_le. lra. }
    apply abs_inv in A1, A2.
    assert (B1 : Rabs (rnd (rnd (d + b) / 2) - (d + b) / 2) <= 17 / 8 * (u * m) + eta).
    { eapply Rle_trans; [apply (rnd_near _ _ (u * m) m); apply abs_le; lra|]. lra. }
    assert (B2 : Rabs (rnd (rnd (d - b) / 2) - (d - b) / 2) <= 17 / 8 * (u * m) + eta).
    { eapply Rle_trans; [apply (rnd_near _ _ (u * m) m); apply abs_le; lra|]. lra. }
    apply abs_inv in B1, B2. set (mid := rnd (rnd (d + b) / 2)) in *. set (h := rnd (rnd (d - b) / 2)) in *.
    assert (C1 : Rabs (rnd (s - mid) - (s - (d + b) / 2)) <= 35 / 8 * (u * m) + 33 / 16 * eta).
    { eapply Rle_trans; [apply (rnd_near _ _ (17 / 8 * (u * m) + eta) (2 * m)); apply abs_le; lra|]. lra. }
    set (w := rnd (s - mid)) in *. set (v := s - (d + b) / 2) in *.
    assert (C2 : Rabs (Rabs w - Rabs v) <= 35 / 8 * (u * m) + 33 / 16 * eta). { eapply Rle_trans; [apply Rabs_triang_inv2|exact C1]. }
    apply abs_inv in C2. assert (Hv : 0 <= Rabs v <= 2 * m). { split; [apply Rabs_pos|]. apply abs_le. unfold v. lra. }
    assert (D1 : Rabs (rnd (- Rabs w + h) - (- Rabs v + (d - b) / 2)) <= 12 * (u * m) + 5 * eta).
    { eapply Rle_trans; [apply (rnd_near _ _ (13 / 2 * (u * m) + 49 / 16 * eta) (2 * m)); apply abs_le; lra|]. lra. }
    assert (Ex : - Rabs v + (d - b) / 2 = Rmin (s - b) (d - s)). { unfold v, Rmin, Rabs. destruct (Rcase_abs _), (Rle_dec _ _); lra. }
    rewrite Ex in D1. apply abs_inv in D1. rewrite (Rmax_comm 0). apply abs_le. unfold Rmax. destruct (Rle_dec _ _), (Rle_dec _ _); lra.
Qed.

(** ** C84: grids *)
Section Grid.
Variables (a b : R) (n : Z) (zero : bool).
Hypothesis Na : num a.
Hypothesis Nb : num b.
Hypothesis Hn : (2 <= n)%Z.
Hypothesis Hbig : (8 * (n - 1) <= 2 ^ prec)%Z.
Hypothesis Hab : a = b \/ bpow radix2 (emin + prec) * IZR (n - 1) <= b - a.
Let N := IZR (n - 1).
Lemma N_ge : 1 <= N. Proof. apply IZR_le. lia. Qed.
Lemma Nu : u * N <= / 8.
Proof.
  assert (H : IZR (8 * (n - 1)) <= IZR (2 ^ prec)) by now apply IZR_le. rewrite mult_IZR in H. fold N in H.
  change (IZR (2 ^ prec)) with (IZR (Zpower radix2 prec)) in H. rewrite IZR_Zpower in H by lia. unfold unit_roundoff. rewrite bpow_opp.
  pose proof (bpow_gt_0 radix2 prec) as P. apply (Rmult_le_reg_l (bpow radix2 prec)); [exact P|]. rewrite <- Rmult_assoc, Rinv_r by lra. lra.
Qed.
Lemma Hle : a <= b.
Proof. destruct Hab as [->|H]; [lra|]. fold N in H. pose proof N_ge. pose proof (bpow_gt_0 radix2 (emin + prec)). nra. Qed.
Lemma delta_ge : 0 <= rnd (b - a).
Proof. apply rnd_pos. pose proof Hle. lra. Qed.
Lemma step_ge : 0 <= grid_step rnd a b n.
Proof. apply rnd_pos. fold N. pose proof N_ge. apply Rmult_le_pos; [apply delta_ge|]. apply Rlt_le, Rinv_0_lt_compat. lra. Qed.
Lemma offset_le i j : (0 <= i <= j)%Z -> grid_offset rnd zero a b n i <= grid_offset rnd zero a b n j.
Proof.
  intros H. assert (IZR i <= IZR j) by (apply IZR_le; lia). assert (0 <= IZR i) by (apply IZR_le; lia). unfold grid_offset. destruct zero.
  - apply rnd_le. apply Rmult_le_compat_r; [apply delta_ge|]. apply rnd_le. fold N. apply Rmult_le_compat_r; [|assumption]. apply Rlt_le, Rinv_0_lt_compat. pose proof N_ge. lra.
  - apply rnd_le. apply Rmult_le_compat_r; [apply step_ge|assumption].
Qed.
Lemma offset_0 : grid_offset rnd zero a b n 0 = 0.
Proof. unfold grid_offset. destruct zero; unfold Rdiv; rewrite ?Rmult_0_l, ?rnd_0, ?Rmult_0_l, ?rnd_0; reflexivity. Qed.
Lemma offset_bound i : (0 <= i <= n - 2)%Z -> grid_offset rnd zero a b n i <= b - a.
Proof.
  intros Hi. pose proof N_ge as HN. pose proof Nu as HNu. pose proof u_pos as Up. pose proof u_small as Us. pose proof eta_pos as Ep. pose proof Hle as Hl.
  destruct Hab as [E|Hab'].
  { subst b. replace (a - a) with 0 by ring. unfold grid_offset, grid_step. replace (a - a) with 0 by ring. rewrite rnd_0. destruct zero.
    - rewrite Rmult_0_r, rnd_0. lra.
    - unfold Rdiv. rewrite Rmult_0_l, rnd_0, Rmult_0_r, rnd_0. lra. }
  fold N in Hab'. set (D := b - a) in *.
  assert (Het : eta * N <= u * D / 2).
  { replace (bpow radix2 (emin + prec)) with (eta * 2 * bpow radix2 prec) in Hab'.
    2:{ replace (emin + prec)%Z with ((emin - 1) + 1 + prec)%Z by ring. rewrite !bpow_plus. change (bpow radix2 1) with 2. ring. }
    unfold unit_roundoff. rewrite bpow_opp. pose proof (bpow_gt_0 radix2 prec) as P. apply (Rmult_le_reg_l (bpow radix2 prec)); [exact P|].
    replace (bpow radix2 prec * (/ bpow radix2 prec * D / 2)) with (D / 2) by (field; lra). lra. }
  assert (Hi1 : 0 <= IZR i <= N - 1). { unfold N. rewrite <- minus_IZR. split; apply IZR_le; lia. }
  assert (Hd : 0 <= rnd D <= D * (1 + u)). { split; [apply delta_ge|]. pose proof (abs_inv _ _ (diff_err b a Nb Na)) as E. fold D in E. rewrite Rabs_pos_eq in E by (unfold D; lra). lra. }
  unfold grid_offset, grid_step. fold D N. set (q := rnd D) in *. assert (HD : 0 <= D) by (unfold D; lra).
  assert (Frac : (1 - / N) * (1 + 4 * u) <= 1 - / N * / 2 + 0 /\ 0 <= 1 - / N).
  { assert (0 < / N <= 1). { split; [apply Rinv_0_lt_compat; lra|]. rewrite <- Rinv_1. apply Rinv_le_contravar; lra. }
    assert (u <= / N * / 8). { apply (Rmult_le_reg_r N); [lra|]. replace (/ N * / 8 * N) with (/ 8) by (field; lra). exact HNu. } split; nra. }
  set (v := / N) in *.
  assert (Vn : v * N = 1) by (unfold v; field; lra).
  assert (V0 : 0 < v <= 1). { split; [apply Rinv_0_lt_compat; lra|]. unfold v. rewrite <- Rinv_1. apply Rinv_le_contravar; lra. }
  assert (Hu8 : u <= v / 8). { apply (Rmult_le_reg_r N); [lra|]. unfold Rdiv. replace (v * / 8 * N) with (v * N * / 8) by ring. rewrite Vn. lra. }
  assert (HeD : eta <= v * (u * D / 2)). { apply (Rmult_le_reg_r N); [lra|]. replace (v * (u * D / 2) * N) with (v * N * (u * D / 2)) by ring. rewrite Vn. lra. }
  assert (HuD : 0 <= u * D) by nra.
  destruct zero.
  - assert (Hf : 0 <= IZR i / N <= 1 - v). { unfold Rdiv. fold v. split; [nra|]. assert (IZR i * v <= (N - 1) * v) by nra. nra. }
    assert (Hr : 0 <= rnd (IZR i / N) <= 1 - v + 33 / 32 * u).
    { split; [apply rnd_pos; lra|]. pose proof (abs_inv _ _ (rnd_err (IZR i / N))) as E. rewrite Rabs_pos_eq in E by lra. pose proof eta_small. nra. }
    set (r := rnd (IZR i / N)) in *.
    assert (Hp : 0 <= r * q). { apply Rmult_le_pos; lra. }
    pose proof (abs_inv _ _ (rnd_err (r * q))) as E. rewrite Rabs_pos_eq in E by exact Hp.
    assert (r * q <= (1 - v + 33 / 32 * u) * (D * (1 + u))) by (apply Rmult_le_compat; lra).
    assert (K : (1 - v + 33 / 32 * u) * (1 + u) * (1 + u) + v * u / 2 <= 1) by nra.
    assert ((1 - v + 33 / 32 * u) * (D * (1 + u)) * (1 + u) + v * (u * D / 2) <= D).
    { replace ((1 - v + 33 / 32 * u) * (D * (1 + u)) * (1 + u) + v * (u * D / 2)) with (((1 - v + 33 / 32 * u) * (1 + u) * (1 + u) + v * u / 2) * D) by field. nra. }
    nra.
  - assert (Q0 : 0 <= q / N). { unfold Rdiv. fold v. apply Rmult_le_pos; lra. }
    pose proof (abs_inv _ _ (rnd_err (q / N))) as E. rewrite Rabs_pos_eq in E by exact Q0. set (st := rnd (q / N)) in *.
    assert (S0 : 0 <= st) by (apply rnd_pos; exact Q0).
    assert (S1 : st <= D * (1 + u) * (1 + u) * v + eta). { unfold Rdiv in E. fold v in E. assert (q * v <= D * (1 + u) * v) by nra. nra. }
    assert (P0 : 0 <= IZR i * st) by (apply Rmult_le_pos; lra).
    pose proof (abs_inv _ _ (rnd_err (IZR i * st))) as F. rewrite Rabs_pos_eq in F by exact P0.
    assert (P1 : IZR i * st <= (1 - v) * (D * (1 + u) * (1 + u)) + (N - 1) * eta).
    { assert (IZR i * st <= (N - 1) * (D * (1 + u) * (1 + u) * v + eta)) by (apply Rmult_le_compat; lra).
      replace ((1 - v) * (D * (1 + u) * (1 + u))) with ((N - 1) * (D * (1 + u) * (1 + u) * v)); [lra|].
      replace ((N - 1) * (D * (1 + u) * (1 + u) * v)) with ((v * N - v) * (D * (1 + u) * (1 + u))) by ring. rewrite Vn. reflexivity. }
    assert (K : (1 - v) * (1 + u) * (1 + u) * (1 + u) + (1 + u) * u / 2 <= 1) by nra.
    assert ((1 - v) * (D * (1 + u) * (1 + u)) * (1 + u) + (1 + u) * (u * D / 2) <= D).
    { replace ((1 - v) * (D * (1 + u) * (1 + u)) * (1 + u) + (1 + u) * (u * D / 2)) with (((1 - v) * (1 + u) * (1 + u) * (1 + u) + (1 + u) * u / 2) * D) by field. nra. }
    nra.
Qed.
(** A sampling computed by np.linspace starts and ends at the given values, never decreases and
    stays between them. *)
Theorem grid_rounding :
  let g := grid rnd zero a b n in
  zlen g = n /\ Znth g 0 = Some a /\ Znth g (n - 1) = Some b /\
  (forall i x, Znth g i = Some x -> num x /\ a <= x <= b) /\
  (forall i j x y, (i <= j)%Z -> Znth g i = Some x -> Znth g j = Some y -> x <= y).
Proof.
  cbv zeta. pose proof Hle as Hl. unfold grid. destruct (Z.eqb_spec n 1) as [E|_]; [lia|].
  set (f := fun i => if (i =? n - 1)%Z then b else rnd (grid_offset rnd zero a b n i + a)).
  assert (F0 : f 0%Z = a). { unfold f. destruct (Z.eqb_spec 0 (n - 1)); [lia|]. rewrite offset_0, Rplus_0_l. now apply rnd_id. }
  assert (F1 : f (n - 1)%Z = b) by (unfold f; now rewrite Z.eqb_refl).
  assert (Fm : forall i j, (0 <= i <= j)%Z -> (j < n)%Z -> f i <= f j).
  { intros i j H1 H2. unfold f. destruct (Z.eqb_spec i (n - 1)), (Z.eqb_spec j (n - 1)); try lia; try lra.
    - apply (rnd_upper _ _ Nb). assert (grid_offset rnd zero a b n i <= b - a) by (apply offset_bound; lia). lra.
    - apply rnd_le. assert (grid_offset rnd zero a b n i <= grid_offset rnd zero a b n j) by (apply offset_le; lia). lra. }
  assert (Fz : forall i x, Znth (tabZ n f) i = Some x -> (0 <= i < n)%Z /\ x = f i).
  { intros i x H. pose proof (Znth_Some_lt _ _ _ H) as B. rewrite zlen_tabZ in B by lia. split; [exact B|]. rewrite Znth_tabZ in H by exact B. congruence. }
  split; [apply zlen_tabZ; lia|]. split; [rewrite Znth_tabZ by lia; congruence|]. split; [rewrite Znth_tabZ by lia; congruence|]. split.
  - intros i x H. apply Fz in H. destruct H as [B ->]. split.
    + unfold f. destruct (_ =? _)%Z; [exact Nb|apply rnd_num].
    + split; [rewrite <- F0|rewrite <- F1]; apply Fm; lia.
  - intros i j x y H H1 H2. apply Fz in H1, H2. destruct H1 as [B1 ->], H2 as [B2 ->]. apply Fm; lia.
Qed.
(** The values are those of the exact sampling up to rounding errors. *)
Theorem grid_accuracy i x : Znth (grid rnd zero a b n) i = Some x ->
  Rabs (x - (a + IZR i * ((b - a) / IZR (n - 1)))) <= 12 * u * Rmax (Rabs a) (Rabs b).
Proof.
  unfold grid. destruct (Z.eqb_spec n 1) as [E|_]; [lia|]. intros H. pose proof (Znth_Some_lt _ _ _ H) as Hi. rewrite zlen_tabZ in Hi by lia. rewrite Znth_tabZ in H by exact Hi. injection H as <-.
  pose proof N_ge as HN. pose proof u_pos as Up. pose proof u_small as Us. pose proof eta_pos as Ep. pose proof eta_small as Es. pose proof Hle as Hl. fold N.
  set (m := Rmax (Rabs a) (Rabs b)). assert (M1 : Rabs a <= m) by apply Rmax_l. assert (M2 : Rabs b <= m) by apply Rmax_r. apply abs_inv in M1, M2.
  assert (I : 0 <= IZR i <= N). { unfold N. split; apply IZR_le; lia. } set (D := b - a).
  assert (Um : 0 <= u * m) by (apply Rmult_le_pos; lra).
  destruct (Z.eqb_spec i (n - 1)) as [->|Ni].
  { fold N. replace (b - (a + N * (D / N))) with 0 by (unfold D; field; lra). rewrite Rabs_R0. lra. }
  destruct Hab as [E|Hab'].
  { assert (E0 : D = 0) by (unfold D; lra). rewrite E0. replace (a + IZR i * (0 / N)) with a by (field; lra).
    assert (G : grid_offset rnd zero a b n i = 0).
    { unfold grid_offset, grid_step. fold D. rewrite E0, rnd_0. destruct zero; [now rewrite Rmult_0_r, rnd_0|]. unfold Rdiv. now rewrite Rmult_0_l, rnd_0, Rmult_0_r, rnd_0. }
    rewrite G, Rplus_0_l, (rnd_id _ Na), Rminus_diag_eq, Rabs_R0 by reflexivity. lra. }
  fold N D in Hab'.
  assert (Het : eta * N <= u * D / 2).
  { replace (bpow radix2 (emin + prec)) with (eta * 2 * bpow radix2 prec) in Hab'.
    2:{ replace (emin + prec)%Z with ((emin - 1) + 1 + prec)%Z by ring. rewrite !bpow_plus. change (bpow radix2 1) with 2. ring. }
    unfold unit_roundoff. rewrite bpow_opp. pose proof (bpow_gt_0 radix2 prec) as P. apply (Rmult_le_reg_l (bpow radix2 prec)); [exact P|].
    replace (bpow radix2 prec * (/ bpow radix2 prec * D / 2)) with (D / 2) by (field; lra). lra. }
  assert (HD : 0 <= D) by (unfold D; lra). assert (HuD : 0 <= u * D <= D / 16) by nra. assert (HuuD : 0 <= u * (u * D) <= u * D / 16) by nra.
  assert (He : eta <= u * D / 2) by nra. assert (HeN : eta * (N - 1) >= 0) by nra.
  assert (Dl : Rabs (rnd D - D) <= u * D). { pose proof (diff_err b a Nb Na) as E. fold D in E. now rewrite (Rabs_pos_eq D) in E by exact HD. } apply abs_inv in Dl.
  set (t := D / N). assert (tN : t * N = D) by (unfold t; field; lra). assert (t0 : 0 <= t) by (unfold t; apply Rmult_le_pos; [exact HD|apply Rlt_le, Rinv_0_lt_compat; lra]).
  assert (Xt : 0 <= IZR i * t <= D) by (rewrite <- tN; nra). set (x := IZR i) in *.
  assert (Y : Rabs (grid_offset rnd zero a b n i - x * t) <= 9 / 2 * (u * D)).
  { unfold grid_offset, grid_step. fold N D x. set (dl := rnd D) in *.
    assert (Fin : forall y, Rabs (y - x * t) <= 27 / 10 * (u * D) -> Rabs (rnd y - x * t) <= 9 / 2 * (u * D)).
    { intros y Hy. eapply Rle_trans; [apply (rnd_near _ _ _ D Hy); apply abs_le; lra|]. lra. }
    destruct zero; apply Fin.
    - assert (F : 0 <= x / N <= 1). { split; [apply Rmult_le_pos; [lra|apply Rlt_le, Rinv_0_lt_compat; lra]|]. apply (Rmult_le_reg_r N); [lra|]. unfold Rdiv. rewrite Rmult_assoc, Rinv_l by lra. lra. }
      pose proof (rnd_err (x / N)) as R. rewrite (Rabs_pos_eq (x / N)) in R by lra. assert (R1 : Rabs (rnd (x / N) - x / N) <= 33 / 32 * u) by nra. clear R.
      assert (Xs : x * t = x / N * D) by (unfold t; field; lra). rewrite Xs. set (r := rnd (x / N)) in *. set (f := x / N) in *. clearbody r. clearbody f.
      replace (r * dl - f * D) with ((r - f) * dl + f * (dl - D)) by ring. eapply Rle_trans; [apply Rabs_triang|]. rewrite (Rabs_mult (r - f)), (Rabs_mult f), (Rabs_pos_eq f) by lra.
      assert (T1 : Rabs (r - f) * Rabs dl <= 33 / 32 * u * (D + u * D)) by (apply Rmult_le_compat; [apply Rabs_pos..|exact R1|apply abs_le; lra]).
      assert (T2 : f * Rabs (dl - D) <= 1 * (u * D)) by (apply Rmult_le_compat; [lra|apply Rabs_pos|lra|apply abs_le; lra]). lra.
    - assert (St : Rabs (N * (rnd (dl / N) - dl / N)) <= u * (D + u * D) + u * D / 2).
      { rewrite Rabs_mult, (Rabs_pos_eq N) by lra. eapply Rle_trans; [apply Rmult_le_compat_l; [lra|apply rnd_err]|].
        unfold Rdiv. rewrite Rabs_mult, (Rabs_pos_eq (/ N)) by (apply Rlt_le, Rinv_0_lt_compat; lra).
        replace (N * (u * (Rabs dl * / N) + eta)) with (u * Rabs dl + N * eta) by (field; lra).
        assert (u * Rabs dl <= u * (D + u * D)) by (apply Rmult_le_compat_l; [lra|apply abs_le; lra]). lra. }
      set (st := rnd (dl / N)) in *. replace (N * (st - dl / N)) with (N * (st - t) - (dl - D)) in St by (rewrite <- tN; field; lra).
      apply abs_inv in St. assert (Z : Rabs (N * (st - t)) <= 27 / 10 * (u * D)) by (apply abs_le; lra).
      rewrite Rabs_mult, (Rabs_pos_eq N) in Z by lra. replace (x * st - x * t) with (x * (st - t)) by ring. rewrite Rabs_mult, (Rabs_pos_eq x) by lra.
      assert (x * Rabs (st - t) <= N * Rabs (st - t)) by (apply Rmult_le_compat_r; [apply Rabs_pos|lra]). lra. }
  apply abs_inv in Y. assert (HDm : D <= 2 * m) by (unfold D; lra). assert (u * D <= 2 * (u * m)) by nra.
  eapply Rle_trans; [apply (rnd_near _ (a + x * t) (9 / 2 * (u * D)) m); apply abs_le; unfold D in *; lra|]. lra.
Qed.
End Grid.

Lemma rnd_at e z x : cexp radix2 fexp x = e -> Rabs (x - IZR z * bpow radix2 e) < bpow radix2 e / 2 -> rnd x = IZR z * bpow radix2 e.
Proof.
  intros Hc H. unfold nearest, round, F2R, scaled_mantissa. rewrite Hc. cbn [Fnum Fexp]. f_equal. f_equal. apply Znearest_imp.
  pose proof (bpow_gt_0 radix2 e) as P. replace (x * bpow radix2 (- e) - IZR z) with ((x - IZR z * bpow radix2 e) * bpow radix2 (- e)).
  - rewrite Rabs_mult, (Rabs_pos_eq (bpow radix2 (- e))) by apply bpow_ge_0. rewrite bpow_opp. apply (Rmult_lt_reg_r (bpow radix2 e)); [exact P|].
    rewrite Rmult_assoc, Rinv_l by lra. lra.
  - rewrite bpow_opp. field. lra.
Qed.
Lemma cexp_small x : x <> 0 -> Rabs x < bpow radix2 (emin + prec) -> cexp radix2 fexp x = emin.
Proof. intros N H. unfold cexp, FLT_exp. pose proof (mag_le_bpow radix2 x (emin + prec) N H). lia. Qed.
Lemma cexp_large x : bpow radix2 prec <= Rabs x < bpow radix2 (prec + 1) -> cexp radix2 fexp x = 1%Z.
Proof. intros H. unfold cexp, FLT_exp. rewrite (mag_unique radix2 x (prec + 1)); [lia|]. replace (prec + 1 - 1)%Z with prec by ring. exact H. Qed.

(** Below the normal numbers the sampling may exceed its greatest value: 11 values from 0 to
    6 * 2^emin. *)
Theorem grid_subnormal_refuted :
  num 0 /\ num (6 * bpow radix2 emin) /\
  Znth (grid1 rnd 0 (6 * bpow radix2 emin) 11) 9 = Some (9 * bpow radix2 emin) /\
  Znth (grid1 rnd 0 (6 * bpow radix2 emin) 11) 10 = Some (6 * bpow radix2 emin).
Proof.
  pose proof (bpow_gt_0 radix2 emin) as P. set (e := bpow radix2 emin) in *.
  assert (B : 16 * e <= bpow radix2 (emin + prec)). { rewrite bpow_plus. fold e. assert (bpow radix2 4 <= bpow radix2 prec) by (apply bpow_le; lia). change (bpow radix2 4) with 16 in H. nra. }
  assert (Nk : forall k, (Z.abs k < 16)%Z -> num (IZR k * e)).
  { intros k Hk. exists k, emin. split; [reflexivity|]. split; [|lia]. apply (Z.lt_le_trans _ (2 ^ 4)); [exact Hk|]. apply Z.pow_le_mono_r; lia. }
  assert (N0 : num 0) by (replace 0 with (IZR 0 * e) by ring; apply Nk; lia).
  assert (N6 : num (6 * e)) by (apply (Nk 6%Z); lia).
  assert (S : grid_step rnd 0 (6 * e) 11 = e).
  { unfold grid_step. rewrite Rminus_0_r, (rnd_id _ N6). change (11 - 1)%Z with 10%Z. replace e with (IZR 1 * bpow radix2 emin) at 2 by (unfold e; ring). apply rnd_at.
    - apply cexp_small; [lra|]. rewrite Rabs_pos_eq by lra. lra.
    - fold e. apply Rabs_def1; lra. }
  assert (Z0 : is_zero (grid_step rnd 0 (6 * e) 11) = false). { rewrite S. unfold is_zero. destruct (Req_EM_T e 0); [lra|reflexivity]. }
  split; [exact N0|]. split; [exact N6|]. unfold grid1. rewrite Z0. unfold grid. change (11 =? 1)%Z with false. cbv iota. split; rewrite Znth_tabZ by lia; [|reflexivity].
  change (9 =? 11 - 1)%Z with false. cbv iota. unfold grid_offset. rewrite S, Rplus_0_r. rewrite (rnd_id (9 * e)) by (apply (Nk 9%Z); lia). now rewrite (rnd_id (9 * e)) by (apply (Nk 9%Z); lia).
Qed.

(** ** C85: covers *)
Section Cover.
Variables (a b g : R) (n : Z).
Hypothesis Hn : (2 <= n)%Z.
Hypothesis Hg : 0 < g < 1.
Hypothesis Hab : a < b.
Let m := Rmax (Rabs a) (Rabs b).
Let N := IZR n.
Let D := b - a.
Hypothesis Hm : 256 * (N * N) * (u * m) <= g * D.
Hypothesis He : bpow radix2 (emin + prec) * (N * N) <= g * D.
Let d := N - (N - 1) * g.
Let L := D / d.
Let A := u * (N * N) * L.
Let B := u * m.
Lemma cN : 2 <= N. Proof. apply IZR_le. exact Hn. Qed.
Lemma cm : - m <= a /\ b <= m /\ 0 <= m /\ D <= 2 * m.
Proof.
  assert (Rabs a <= m) by apply Rmax_l. assert (Rabs b <= m) by apply Rmax_r. apply abs_inv in H, H0. unfold D. lra.
Qed.
Lemma cd : 1 <= d <= N. Proof. pose proof cN. unfold d. nra. Qed.
Lemma cL : 0 < L /\ d * L = D /\ L <= D <= N * L.
Proof.
  pose proof cd. assert (0 < D) by (unfold D; lra). assert (E : d * L = D) by (unfold L; field; lra). assert (0 < L) by (unfold L; apply Rdiv_lt_0_compat; lra). repeat split; nra.
Qed.
Lemma cA : 0 < A /\ A <= L / 128 /\ A <= 2 * g * L / 256 /\ 0 <= B <= g * L / 512.
Proof.
  pose proof cN. pose proof cm as [M1 [M2 [M3 M4]]]. pose proof cL as [L1 [L2 L3]]. pose proof u_pos as Up. assert (HD : 0 < D) by (unfold D; lra).
  assert (Nn : 0 < N * N) by nra.
  assert (V : 256 * (N * N) * u <= 2 * g). { apply (Rmult_le_reg_r m); [lra|]. assert (g * D <= g * (2 * m)) by (apply Rmult_le_compat_l; lra). lra. }
  assert (V0 : 0 < u * (N * N)) by nra.
  unfold A. split; [nra|]. split; [nra|]. split; [nra|]. unfold B. split; [nra|].
  assert (256 * (N * N) * (u * m) <= g * (N * L)) by nra. apply (Rmult_le_reg_l (N * N)); [exact Nn|]. assert (N * (2 * (g * L)) <= N * N * (g * L)) by (apply (Rmult_le_compat_r (g * L)) in H; nra). lra.
Qed.
Lemma ceta : eta * N <= u * L / 2 /\ eta <= u * L / 4.
Proof.
  pose proof cN. pose proof cL as [L1 [L2 L3]]. pose proof u_pos as Up. pose proof eta_pos as Ep.
  assert (H1 : eta * (N * N) <= u * (g * D) / 2).
  { replace (bpow radix2 (emin + prec)) with (eta * 2 * bpow radix2 prec) in He.
    2:{ replace (emin + prec)%Z with ((emin - 1) + 1 + prec)%Z by ring. rewrite !bpow_plus. change (bpow radix2 1) with 2. ring. }
    unfold unit_roundoff. rewrite bpow_opp. pose proof (bpow_gt_0 radix2 prec) as P. apply (Rmult_le_reg_l (bpow radix2 prec)); [exact P|].
    replace (bpow radix2 prec * (/ bpow radix2 prec * (g * D) / 2)) with ((g * D) / 2) by (field; lra). lra. }
  assert (u * (g * D) <= u * (N * L)). { apply Rmult_le_compat_l; [lra|]. nra. }
  assert (H2 : eta * N <= u * L / 2). { apply (Rmult_le_reg_r N); [lra|]. lra. }
  split; [exact H2|]. nra.
Qed.
Let S := (N - 1) * ((1 - g) * L).
Lemma cS : S = D - L /\ 0 <= S <= N * L.
Proof.
  pose proof cN. pose proof cL as [L1 [L2 L3]]. assert (S = D - L) by (rewrite <- L2; unfold S, d; ring). split; [exact H0|]. unfold S. nra.
Qed.
(** elementary bounds in terms of A, B *)
Lemma facts : u * (N * L) <= A / 2 /\ u * L <= A / 4 /\ u * (N * L) * N = A /\ eta <= A / 16 /\ eta * N <= A / 8 /\
  u * A <= A / 512 /\ u * B <= B / 512 /\ u * N <= / 256 /\ u <= / 512 /\ eta <= u /\ eta <= u * (N * L) / 8 /\ 0 <= u * (N * L).
Proof.
  pose proof cN as H. pose proof cL as [L1 [L2 L3]]. pose proof u_pos as Up. pose proof ceta as [E1 E2]. pose proof cA as [A1 [A2 [A3 A4]]]. pose proof eta_small as Es. pose proof u_small as Us.
  assert (X1 : u * (N * L) <= A / 2). { unfold A. assert (N * 2 <= N * N) by nra. assert (u * L * (N * 2) <= u * L * (N * N)) by (apply Rmult_le_compat_l; [nra|assumption]). lra. }
  assert (X2 : u * L <= u * (N * L) / 2). { assert (u * L * 2 <= u * L * N) by (apply Rmult_le_compat_l; [nra|assumption]). lra. }
  assert (X3 : u * (N * N) <= / 128). { apply (Rmult_le_reg_r L); [lra|]. fold A. lra. }
  assert (X4 : u * N <= / 256) by nra. assert (X5 : u <= / 512) by nra.
  repeat split; try lra; try nra.
  - unfold A. ring.
Qed.
Let total := rnd (b - a).
Let den := rnd (N - rnd ((N - 1) * g)).
Let len := rnd (total / den).
Lemma den_near : Rabs (den - d) <= 13 / 5 * (u * N).
Proof.
  pose proof facts as [F1 [F2 [F3 [F4 [F5 [F6 [F7 [F8 [F9 [F10 [F11 F12]]]]]]]]]]]. pose proof cN as H. pose proof cd as Hd. pose proof u_pos as Up.
  assert (C1 : Rabs (rnd ((N - 1) * g) - (N - 1) * g) <= u * N).
  { eapply Rle_trans; [apply rnd_err|]. rewrite Rabs_pos_eq by nra. assert (u * ((N - 1) * g) <= u * (N - 1)) by (apply Rmult_le_compat_l; [lra|]; nra). lra. }
  apply abs_inv in C1. unfold den, d in *. eapply Rle_trans; [apply (rnd_near _ _ (u * N) N); apply abs_le; lra|].
  assert (u * (u * N) <= u * N / 512) by nra. assert (u <= u * N / 2) by nra. lra.
Qed.
Let W := u * (N * L).
Lemma len_near : Rabs (len - L) <= 9 / 2 * W.
Proof.
  pose proof facts as [F1 [F2 [F3 [F4 [F5 [F6 [F7 [F8 [F9 [F10 [F11 F12]]]]]]]]]]]. pose proof cN as H. pose proof cd as Hd. pose proof u_pos as Up. pose proof (abs_inv _ _ den_near) as Dn. pose proof cL as [L1 [L2 L3]].
  fold W in F1, F3, F11, F12.
  assert (T : Rabs (total - D) <= 9 / 8 * W).
  { unfold total, D. eapply Rle_trans; [apply rnd_err|]. rewrite Rabs_pos_eq by (unfold D in *; lra). fold D. assert (u * D <= W) by (unfold W; apply Rmult_le_compat_l; lra). lra. }
  apply abs_inv in T. set (q := total / den). assert (Dp : 989 / 1000 <= den) by lra.
  assert (Q : q * den = total) by (unfold q; field; lra).
  assert (E : (q - L) * den = (total - D) + L * (d - den)) by (rewrite <- L2, <- Q; ring).
  assert (X : - (13 / 5 * W) <= L * (d - den) <= 13 / 5 * W). { unfold W. assert (Y : L * (13 / 5 * (u * N)) = 13 / 5 * (u * (N * L))) by ring. rewrite <- Y. split; nra. }
  assert (Qn : Rabs (q - L) <= 38 / 10 * W). { apply abs_le. split; apply Rnot_lt_le; intros K; nra. }
  unfold len. fold q. eapply Rle_trans; [apply (rnd_near _ _ _ L Qn); apply abs_le; lra|].
  assert (u * L <= W / 2). { unfold W. assert (u * L * 2 <= u * L * N) by (apply Rmult_le_compat_l; [nra|assumption]). lra. }
  assert (u * W <= W / 512). { assert (u * W <= / 512 * W) by (apply Rmult_le_compat_r; lra). lra. }
  lra.
Qed.
Let prod := rnd (rnd ((N - 1) * rnd (1 - g)) * len).
Lemma prod_near : Rabs (prod - S) <= 67 / 10 * A.
Proof.
  pose proof facts as [F1 [F2 [F3 [F4 [F5 [F6 [F7 [F8 [F9 [F10 [F11 F12]]]]]]]]]]]. pose proof cN as H. pose proof u_pos as Up. pose proof (abs_inv _ _ len_near) as Ln. pose proof cL as [L1 [L2 L3]]. pose proof cS as [S1 S2]. pose proof cA as [A1 [A2 [A3 A4]]]. pose proof eta_pos as Ep.
  fold W in F1, F3, F11, F12.
  assert (B1 : Rabs (rnd (1 - g) - (1 - g)) <= 2 * u). { eapply Rle_trans; [apply rnd_err|]. rewrite Rabs_pos_eq by lra. nra. }
  apply abs_inv in B1. set (b1 := rnd (1 - g)) in *.
  assert (B2 : Rabs (rnd ((N - 1) * b1) - (N - 1) * (1 - g)) <= 31 / 10 * (u * N)).
  { eapply Rle_trans; [apply (rnd_near _ _ (2 * u * (N - 1)) (N - 1)); apply abs_le; nra|]. assert (u * (2 * u * (N - 1)) <= u * N / 100).
    { assert (2 * u * (N - 1) <= N / 100) by nra. assert (u * (2 * u * (N - 1)) <= u * (N / 100)) by (apply Rmult_le_compat_l; lra). lra. }
    assert (0 <= u * N) by nra. lra. }
  apply abs_inv in B2. set (b2 := rnd ((N - 1) * b1)) in *.
  assert (P : Rabs (b2 * len - S) <= 61 / 10 * A).
  { replace (b2 * len - S) with ((b2 - (N - 1) * (1 - g)) * len + (N - 1) * (1 - g) * (len - L)) by (unfold S; ring).
    eapply Rle_trans; [apply Rabs_triang|]. rewrite !Rabs_mult.
    assert (W <= L / 256) by (unfold W; nra).
    assert (X1 : Rabs (b2 - (N - 1) * (1 - g)) * Rabs len <= 31 / 10 * (u * N) * (L + 9 / 2 * W)) by (apply Rmult_le_compat; [apply Rabs_pos..|apply abs_le; lra|apply abs_le; lra]).
    assert (X2 : Rabs (N - 1) * Rabs (1 - g) * Rabs (len - L) <= N * 1 * (9 / 2 * W)).
    { apply Rmult_le_compat; [apply Rmult_le_pos; apply Rabs_pos|apply Rabs_pos|apply Rmult_le_compat; try apply Rabs_pos; apply abs_le; lra|apply abs_le; lra]. }
    assert (X3 : 31 / 10 * (u * N) * (L + 9 / 2 * W) = 31 / 10 * W + 31 / 10 * (u * N) * (9 / 2 * W)) by (unfold W; ring).
    assert (X4 : 31 / 10 * (u * N) * (9 / 2 * W) <= 31 / 10 * / 256 * (9 / 2 * W)) by nra. lra. }
  unfold prod. eapply Rle_trans; [apply (rnd_near _ _ _ (N * L) P); apply abs_le; lra|]. fold W. assert (u * (61 / 10 * A) <= A / 50) by lra. unfold W in *. lra.
Qed.
Let last := rnd (a + prod).
Lemma last_near : Rabs (last - (a + S)) <= 34 / 5 * A + B.
Proof.
  pose proof facts as [F1 [F2 [F3 [F4 [F5 [F6 [F7 [F8 [F9 [F10 [F11 F12]]]]]]]]]]]. pose proof cA as [A1 [A2 [A3 A4]]]. pose proof cm as [M1 [M2 [M3 M4]]]. pose proof cS as [S1 S2]. pose proof cL as [L1 [L2 L3]].
  pose proof (abs_inv _ _ prod_near) as P. unfold last. eapply Rle_trans; [apply (rnd_near _ (a + S) (67 / 10 * A) m)|].
  - apply abs_le. lra.
  - apply abs_le. unfold D in *. lra.
  - fold B. replace (u * (m + 67 / 10 * A)) with (B + 67 / 10 * (u * A)) by (unfold B; ring). lra.
Qed.
Lemma offset_near i zero : (0 <= i <= n - 1)%Z -> Rabs (grid_offset rnd zero a last n i - IZR i * ((1 - g) * L)) <= 91 / 10 * A + 103 / 100 * B.
Proof.
  intros Hi. pose proof facts as [F1 [F2 [F3 [F4 [F5 [F6 [F7 [F8 [F9 [F10 [F11 F12]]]]]]]]]]]. pose proof cA as [A1 [A2 [A3 A4]]]. pose proof cS as [S1 S2]. pose proof cL as [L1 [L2 L3]]. pose proof cN as H. pose proof u_pos as Up. pose proof eta_pos as Ep.
  pose proof (abs_inv _ _ last_near) as P. set (s := (1 - g) * L) in *. assert (S3 : S = (N - 1) * s) by reflexivity.
  assert (N1 : IZR (n - 1) = N - 1) by (rewrite minus_IZR; reflexivity).
  assert (I : 0 <= IZR i <= N - 1) by (rewrite <- N1; split; apply IZR_le; lia). set (x := IZR i) in *.
  assert (s0 : 0 <= s) by (unfold s; nra).
  assert (Dl : Rabs (rnd (last - a) - S) <= 37 / 5 * A + 101 / 100 * B).
  { eapply Rle_trans; [apply (rnd_near _ S (34 / 5 * A + B) (N * L)); apply abs_le; lra|]. replace (u * (N * L + (34 / 5 * A + B))) with (u * (N * L) + 34 / 5 * (u * A) + u * B) by ring. lra. }
  unfold grid_offset, grid_step. rewrite N1. fold x. set (dl := rnd (last - a)) in *. apply abs_inv in Dl.
  assert (X : 0 <= x * s <= N * L) by nra.
  assert (Uz : forall z, Rabs z <= N * L + 9 * A + 2 * B -> u * Rabs z <= 52 / 100 * A + B / 200). { intros z Hz. assert (u * Rabs z <= u * (N * L + 9 * A + 2 * B)) by (apply Rmult_le_compat_l; lra). lra. }
  assert (Fin : forall y, Rabs (y - x * s) <= 17 / 2 * A + 102 / 100 * B -> Rabs (rnd y - x * s) <= 91 / 10 * A + 103 / 100 * B).
  { intros y Hy. apply abs_inv in Hy. pose proof (rnd_err y) as Ey. assert (u * Rabs y <= 52 / 100 * A + B / 200). { apply Uz. apply abs_le. lra. } apply abs_inv in Ey. apply abs_le. lra. }
  destruct zero; apply Fin.
  - assert (R : Rabs (rnd (x / (N - 1)) - x / (N - 1)) <= 2 * u).
    { eapply Rle_trans; [apply rnd_err|]. assert (0 <= x / (N - 1) <= 1). { split; [apply Rmult_le_pos; [lra|apply Rlt_le, Rinv_0_lt_compat; lra]|]. apply (Rmult_le_reg_r (N - 1)); [lra|]. unfold Rdiv. rewrite Rmult_assoc, Rinv_l by lra. lra. }
      rewrite Rabs_pos_eq by lra. nra. }
    assert (Xs : x * s = x / (N - 1) * S) by (rewrite S3; field; lra). set (r := rnd (x / (N - 1))) in *.
    assert (F : 0 <= x / (N - 1) <= 1). { split; [apply Rmult_le_pos; [lra|apply Rlt_le, Rinv_0_lt_compat; lra]|]. apply (Rmult_le_reg_r (N - 1)); [lra|]. unfold Rdiv. rewrite Rmult_assoc, Rinv_l by lra. lra. }
    rewrite Xs. clear Xs. set (f := x / (N - 1)) in *. clearbody r. clearbody f. replace (r * dl - f * S) with ((r - f) * dl + f * (dl - S)) by ring.
    eapply Rle_trans; [apply Rabs_triang|]. rewrite (Rabs_mult (r - f)), (Rabs_mult f), (Rabs_pos_eq f) by lra.
    assert (T1 : Rabs (r - f) * Rabs dl <= 2 * u * Rabs dl) by (apply Rmult_le_compat_r; [apply Rabs_pos|exact R]).
    assert (T2 : u * Rabs dl <= 52 / 100 * A + B / 200) by (apply Uz; apply abs_le; lra).
    assert (T3 : f * Rabs (dl - S) <= 1 * (37 / 5 * A + 101 / 100 * B)) by (apply Rmult_le_compat; [lra|apply Rabs_pos|lra|apply abs_le; lra]). lra.
  - assert (St : Rabs ((N - 1) * (rnd (dl / (N - 1)) - dl / (N - 1))) <= 65 / 100 * A + B / 200).
    { rewrite Rabs_mult, (Rabs_pos_eq (N - 1)) by lra. eapply Rle_trans; [apply Rmult_le_compat_l; [lra|apply rnd_err]|].
      unfold Rdiv. rewrite Rabs_mult, (Rabs_pos_eq (/ (N - 1))) by (apply Rlt_le, Rinv_0_lt_compat; lra).
      replace ((N - 1) * (u * (Rabs dl * / (N - 1)) + eta)) with (u * Rabs dl + (N - 1) * eta) by (field; lra).
      assert (u * Rabs dl <= 52 / 100 * A + B / 200) by (apply Uz; apply abs_le; lra). lra. }
    set (st := rnd (dl / (N - 1))) in *.
    assert (Y : Rabs ((N - 1) * (st - s)) <= 41 / 5 * A + 102 / 100 * B).
    { replace ((N - 1) * (st - s)) with ((N - 1) * (st - dl / (N - 1)) + (dl - S)) by (rewrite S3; field; lra). eapply Rle_trans; [apply Rabs_triang|]. assert (Rabs (dl - S) <= 37 / 5 * A + 101 / 100 * B) by (apply abs_le; lra). lra. }
    rewrite Rabs_mult, (Rabs_pos_eq (N - 1)) in Y by lra. replace (x * st - x * s) with (x * (st - s)) by ring. rewrite Rabs_mult, (Rabs_pos_eq x) by lra.
    assert (x * Rabs (st - s) <= (N - 1) * Rabs (st - s)) by (apply Rmult_le_compat_r; [apply Rabs_pos|lra]). lra.
Qed.
(** The limits are near those of the exact cover. *)
Lemma limits_near i : (0 <= i < n)%Z -> exists l r, Znth (fst (limits rnd a b n g)) i = Some l /\ Znth (snd (limits rnd a b n g)) i = Some r /\
  Rabs (l - (a + IZR i * ((1 - g) * L))) <= 46 / 5 * A + 21 / 10 * B /\
  Rabs (r - (a + IZR i * ((1 - g) * L) + L)) <= 58 / 5 * A + 16 / 5 * B.
Proof.
  intros Hi. unfold limits. cbn [fst snd]. assert (N1 : IZR (n - 1) = N - 1) by (rewrite minus_IZR; reflexivity). rewrite N1. fold N. fold den. fold total. fold len. fold prod. fold last.
  unfold grid1. set (z := is_zero (grid_step rnd a last n)). unfold grid. destruct (Z.eqb_spec n 1) as [E|_]; [lia|].
  pose proof facts as [F1 [F2 [F3 [F4 [F5 [F6 [F7 [F8 [F9 [F10 [F11 F12]]]]]]]]]]]. pose proof cA as [A1 [A2 [A3 A4]]]. pose proof cS as [S1 S2]. pose proof cL as [L1 [L2 L3]]. pose proof cN as H. pose proof u_pos as Up. pose proof cm as [M1 [M2 [M3 M4]]].
  rewrite Znth_map, Znth_tabZ by exact Hi. cbn [option_map]. set (l := if (i =? n - 1)%Z then last else rnd (grid_offset rnd z a last n i + a)). exists l, (rnd (l + len)).
  split; [reflexivity|]. split; [reflexivity|]. set (s := (1 - g) * L) in *. assert (S3 : S = (N - 1) * s) by reflexivity.
  assert (I : 0 <= IZR i <= N - 1) by (rewrite <- N1; split; apply IZR_le; lia). set (x := IZR i) in *.
  assert (s0 : 0 <= s) by (unfold s; nra). assert (Xs : 0 <= x * s <= S) by (rewrite S3; nra).
  assert (Ll : Rabs (l - (a + x * s)) <= 46 / 5 * A + 21 / 10 * B).
  { unfold l. destruct (Z.eqb_spec i (n - 1)) as [->|Ne].
    - assert (x = N - 1) by (unfold x; exact N1). assert (x * s = S) by (rewrite H0; symmetry; exact S3). rewrite H1. pose proof last_near. lra.
    - assert (O : Rabs (grid_offset rnd z a last n i - x * s) <= 91 / 10 * A + 103 / 100 * B) by (apply offset_near; lia). apply abs_inv in O.
      eapply Rle_trans; [apply (rnd_near _ (a + x * s) (91 / 10 * A + 103 / 100 * B) m); apply abs_le; unfold D in *; lra|].
      replace (u * (m + (91 / 10 * A + 103 / 100 * B))) with (B + 91 / 10 * (u * A) + 103 / 100 * (u * B)) by (unfold B; ring). lra. }
  split; [exact Ll|]. apply abs_inv in Ll. pose proof (abs_inv _ _ len_near) as Ln.
  assert (W <= A / 2) by exact F1.
  eapply Rle_trans; [apply (rnd_near _ (a + x * s + L) (23 / 2 * A + 21 / 10 * B) m); apply abs_le; unfold D in *; lra|].
  replace (u * (m + (23 / 2 * A + 21 / 10 * B))) with (B + 23 / 2 * (u * A) + 21 / 10 * (u * B)) by (unfold B; ring). lra.
Qed.
Lemma limits_overlap i : (0 <= i < n - 1)%Z -> exists l r l', Znth (fst (limits rnd a b n g)) i = Some l /\ Znth (snd (limits rnd a b n g)) i = Some r /\
  Znth (fst (limits rnd a b n g)) (i + 1) = Some l' /\ l' < r.
Proof.
  intros Hi. destruct (limits_near i) as [l [r [El [Er [_ Hr]]]]]; [lia|]. destruct (limits_near (i + 1)) as [l' [r' [El' [_ [Hl' _]]]]]; [lia|].
  exists l, r, l'. repeat (split; [assumption|]). rewrite plus_IZR in Hl'. apply abs_inv in Hr, Hl'. pose proof cA as [A1 [A2 [A3 A4]]]. pose proof cL as [L1 _]. assert (0 < g * L) by nra. lra.
Qed.
End Cover.

Lemma search (P : Z -> Prop) (Pd : forall i, P i \/ ~ P i) n : (1 <= n)%Z -> P 0%Z -> exists i, (0 <= i < n)%Z /\ P i /\ (i = (n - 1)%Z \/ ~ P (i + 1)%Z).
Proof.
  intros Hn H0. replace n with (Z.of_nat (Z.to_nat (n - 1)) + 1)%Z by lia. induction (Z.to_nat (n - 1)) as [|k IH].
  - exists 0%Z. split; [lia|]. split; [exact H0|]. left. lia.
  - destruct IH as [i [Hi [Pi [E|Np]]]].
    + destruct (Pd (i + 1)%Z) as [Y|Nn]; [exists (i + 1)%Z|exists i]; (split; [lia|]; split; [assumption|]); [left; lia|right; exact Nn].
    + exists i. split; [lia|]. split; [exact Pi|]. now right.
Qed.
Lemma max_abs a b : Rabs a <= b -> Rmax (Rabs a) (Rabs b) = b.
Proof. intros H. pose proof (Rabs_pos a). rewrite (Rabs_pos_eq b) by lra. now apply Rmax_right. Qed.

(** The limits are those of the exact cover up to rounding errors. *)
Theorem cover_limits_rounding a b g n : (2 <= n)%Z -> 0 < g < 1 -> a < b ->
  256 * IZR (n * n) * (u * Rmax (Rabs a) (Rabs b)) <= g * (b - a) ->
  bpow radix2 (emin + prec) * IZR (n * n) <= g * (b - a) ->
  let L := (b - a) / (IZR n - (IZR n - 1) * g) in let e := 12 * u * (IZR (n * n) * L + Rmax (Rabs a) (Rabs b)) in
  zlen (fst (limits rnd a b n g)) = n /\ zlen (snd (limits rnd a b n g)) = n /\
  forall i l r, Znth (fst (limits rnd a b n g)) i = Some l -> Znth (snd (limits rnd a b n g)) i = Some r ->
    Rabs (l - (a + IZR i * (1 - g) * L)) <= e /\ Rabs (r - (a + IZR i * (1 - g) * L + L)) <= e.
Proof.
  intros Hn Hg Hab Hm He. cbv zeta. rewrite mult_IZR in *. pose proof (limits_near a b g n Hn Hg Hab Hm He) as NR.
  assert (Z1 : zlen (fst (limits rnd a b n g)) = n). { unfold limits, grid1, grid. cbn [fst]. destruct (Z.eqb_spec n 1); [lia|]. apply zlen_tabZ. lia. }
  split; [exact Z1|]. split; [rewrite <- Z1 at 2; unfold limits; cbn [fst snd]; apply zlen_map|]. intros i l r El Er.
  pose proof (Znth_Some_lt _ _ _ El) as Hi. rewrite Z1 in Hi. destruct (NR i Hi) as [l' [r' [El' [Er' [Hl Hr]]]]].
  assert (l' = l) by congruence. assert (r' = r) by congruence. subst l' r'. rewrite !Rmult_assoc. 
  set (L := (b - a) / (IZR n - (IZR n - 1) * g)) in *. set (m := Rmax (Rabs a) (Rabs b)) in *.
  assert (0 <= m) by (eapply Rle_trans; [apply (Rabs_pos a)|apply Rmax_l]). pose proof u_pos.
  assert (2 <= IZR n) by (apply IZR_le; lia). assert (1 <= IZR n - (IZR n - 1) * g) by nra.
  assert (0 < L) by (unfold L; apply Rdiv_lt_0_compat; lra). assert (0 <= u * m) by nra. assert (0 <= u * (IZR n * IZR n) * L) by (apply Rmult_le_pos; [apply Rmult_le_pos; nra|lra]).
  split; eapply Rle_trans; [exact Hl|lra|exact Hr|lra].
Qed.
(** A uniform cover contains every number if the overlap is large compared with the rounding errors of
    the data. *)
Theorem uniform_cover_rounding a b g n : (1 <= n)%Z -> 0 < g < 1 -> a < b ->
  256 * IZR (n * n) * (u * Rmax (Rabs a) (Rabs b)) <= g * (b - a) ->
  bpow radix2 (emin + prec) * IZR (n * n) <= g * (b - a) ->
  forall x, exists i, (0 <= i < n)%Z /\ in_uniform_set rnd a b n g x i.
Proof.
  intros Hn Hg Hab Hm He x. rewrite mult_IZR in Hm, He. destruct (Z.eq_dec n 1) as [->|N1].
  { exists 0%Z. split; [lia|]. unfold in_uniform_set, limits, grid1, grid. cbn [Z.eqb fst snd map]. eexists _, _. split; [reflexivity|]. split; [reflexivity|]. split; left; reflexivity. }
  assert (Hn2 : (2 <= n)%Z) by lia.
  pose proof (limits_near a b g n Hn2 Hg Hab Hm He) as NR. pose proof (limits_overlap a b g n Hn2 Hg Hab Hm He) as OV.
  destruct (search (fun i => i = 0%Z \/ exists l, Znth (fst (limits rnd a b n g)) i = Some l /\ l < x)) with (n := n) as [i [Hi [Pi E]]]; [|exact Hn|now left|].
  { intros i. destruct (Z.eq_dec i 0) as [->|Ni]; [left; now left|]. destruct (Znth (fst (limits rnd a b n g)) i) as [l|].
    - destruct (Rlt_dec l x); [left; right; eauto|]. right. intros [E|[l' [E H]]]; [lia|]. injection E as <-. lra.
    - right. intros [E|[l' [E H]]]; [lia|discriminate]. }
  exists i. split; [exact Hi|]. destruct (NR i Hi) as [l [r [El [Er _]]]]. exists l, r. split; [exact El|]. split; [exact Er|]. split.
  { destruct Pi as [->|[l' [El' H]]]; [now left|]. right. congruence. }
  destruct (Z.eq_dec i (n - 1)) as [->|Ni]; [now left|]. right. destruct E as [->|E]; [lia|].
  destruct (OV i) as [l0 [r0 [l1 [_ [Er' [El1 H]]]]]]; [lia|]. assert (r0 = r) by congruence. subst r0. apply (Rle_lt_trans _ l1); [|exact H].
  apply Rnot_lt_le. intros K. apply E. right. eauto.
Qed.

Lemma bpow_u : bpow radix2 (emin + prec) <= u.
Proof. unfold unit_roundoff. apply bpow_le. lia. Qed.
(** A balanced cover contains every sample. *)
Theorem balanced_cover_rounding k g n : (1 <= n)%Z -> (1 <= k)%Z -> 0 < g < 1 ->
  256 * IZR (n * n) * u <= g -> 256 * IZR (n * n) * IZR k * u <= 1 ->
  forall x, (0 <= x < k)%Z -> exists i, (0 <= i < n)%Z /\ in_balanced_set rnd k n g x i.
Proof.
  intros Hn Hk Hg H1 H2 x Hx. pose proof u_pos as Up. pose proof u_small as Us. rewrite mult_IZR in H1, H2.
  assert (N1 : 1 <= IZR n) by (apply IZR_le; lia). assert (K1 : 1 <= IZR k) by (apply IZR_le; lia).
  assert (NN : 1 <= IZR n * IZR n) by nra.
  assert (Ku : u * IZR k <= / 256). { assert (1 * (IZR k * u) <= IZR n * IZR n * (IZR k * u)) by (apply Rmult_le_compat_r; nra). lra. }
  assert (Kz : (256 * k <= 2 ^ prec)%Z).
  { apply le_IZR. rewrite mult_IZR. change (IZR (2 ^ prec)) with (IZR (Zpower radix2 prec)). rewrite IZR_Zpower by lia. unfold unit_roundoff in Ku. rewrite bpow_opp in Ku.
    pose proof (bpow_gt_0 radix2 prec) as P. apply (Rmult_le_compat_l (bpow radix2 prec)) in Ku; [|lra]. rewrite <- Rmult_assoc, Rinv_r in Ku by lra. lra. }
  assert (Nh : num (IZR k - / 2)).
  { exists (2 * k - 1)%Z, (-1)%Z. split; [rewrite minus_IZR, mult_IZR; change (bpow radix2 (-1)) with (/ 2); field|]. split; lia. }
  unfold in_balanced_set. replace (IZR (k - 1) + / 2) with (IZR k - / 2) by (rewrite minus_IZR; field). rewrite (rnd_id _ Nh).
  set (a := - / 2). set (b := IZR k - / 2) in *. assert (D : b - a = IZR k) by (unfold a, b; ring).
  assert (X : 0 <= IZR x <= IZR k - 1). { rewrite <- minus_IZR. split; apply IZR_le; lia. }
  destruct (Z.eq_dec n 1) as [->|Nn].
  { exists 0%Z. split; [lia|]. unfold limits, grid1, grid. cbn [Z.eqb fst snd map]. eexists _, _. split; [reflexivity|]. split; [reflexivity|]. split; [unfold a; lra|].
    rewrite D. change (1 - 1)%Z with 0%Z. rewrite Rmult_0_l, rnd_0, Rminus_0_r.
    assert (Nz : forall z, (Z.abs z <= k)%Z -> num (IZR z)) by (intros z Hz; apply num_IZR; lia).
    rewrite (rnd_id (IZR k)) by (apply Nz; lia). rewrite (rnd_id 1) by (apply Nz; lia). unfold Rdiv. rewrite Rinv_1, Rmult_1_r. rewrite (rnd_id (IZR k)) by (apply Nz; lia).
    replace (a + IZR k) with b by (unfold a, b; ring). rewrite (rnd_id _ Nh). unfold b. lra. }
  assert (Hn2 : (2 <= n)%Z) by lia. assert (Hab : a < b) by (unfold a, b; lra).
  assert (Mx : Rmax (Rabs a) (Rabs b) = b). { apply max_abs. unfold a, b. rewrite Rabs_Ropp, Rabs_pos_eq by lra. lra. }
  assert (Hm : 256 * (IZR n * IZR n) * (u * Rmax (Rabs a) (Rabs b)) <= g * (b - a)).
  { rewrite Mx, D. replace (256 * (IZR n * IZR n) * (u * b)) with (256 * (IZR n * IZR n) * u * b) by ring. apply Rmult_le_compat; [nra| |exact H1|unfold b; lra]. unfold b; lra. }
  assert (He : bpow radix2 (emin + prec) * (IZR n * IZR n) <= g * (b - a)).
  { rewrite D. pose proof bpow_u as Bu. assert (bpow radix2 (emin + prec) * (IZR n * IZR n) <= u * (IZR n * IZR n)) by (apply Rmult_le_compat_r; lra). nra. }
  pose proof (limits_near a b g n Hn2 Hg Hab Hm He) as NR. pose proof (limits_overlap a b g n Hn2 Hg Hab Hm He) as OV.
  rewrite Mx in NR. set (d := IZR n - (IZR n - 1) * g) in NR. set (L := (b - a) / d) in NR.
  assert (Hd : 1 <= d <= IZR n) by (unfold d; nra). assert (HL : d * L = IZR k) by (unfold L; rewrite D; field; lra).
  assert (HLk : 0 < L <= IZR k). { assert (0 < L) by (unfold L; rewrite D; apply Rdiv_lt_0_compat; lra). nra. }
  set (A := u * (IZR n * IZR n) * L) in NR. set (B := u * b) in NR.
  assert (HA : 0 <= A <= / 256). { unfold A. split; [apply Rmult_le_pos; nra|]. assert (u * (IZR n * IZR n) * L <= u * (IZR n * IZR n) * IZR k) by (apply Rmult_le_compat_l; nra). lra. }
  assert (HB : 0 <= B <= / 256). { unfold B, b. split; [apply Rmult_le_pos; lra|]. lra. }
  assert (NR0 : forall i, (0 <= i < n)%Z -> exists l r, Znth (fst (limits rnd a b n g)) i = Some l /\ Znth (snd (limits rnd a b n g)) i = Some r /\ (i = 0%Z -> l < 0) /\ (i = (n - 1)%Z -> IZR k - 1 < r)).
  { intros i Hi. destruct (NR i Hi) as [l [r [El [Er [Hl Hr]]]]]. exists l, r. repeat (split; [assumption|]). apply abs_inv in Hl, Hr. split.
    - intros ->. rewrite Rmult_0_l in Hl. unfold a in Hl. lra.
    - intros ->. rewrite minus_IZR in Hr. assert (Ed : (IZR n - 1) * ((1 - g) * L) + L = IZR k) by (rewrite <- HL; unfold d; ring). unfold a in Hr. lra. }
  destruct (search (fun i => i = 0%Z \/ exists l, Znth (fst (limits rnd a b n g)) i = Some l /\ l < IZR x)) with (n := n) as [i [Hi [Pi E]]]; [|exact Hn|now left|].
  { intros i. destruct (Z.eq_dec i 0) as [->|Ni]; [left; now left|]. destruct (Znth (fst (limits rnd a b n g)) i) as [l|].
    - destruct (Rlt_dec l (IZR x)); [left; right; eauto|]. right. intros [E|[l' [E H]]]; [lia|]. injection E as <-. lra.
    - right. intros [E|[l' [E H]]]; [lia|discriminate]. }
  exists i. split; [exact Hi|]. destruct (NR0 i Hi) as [l [r [El [Er [L0 Ln]]]]]. exists l, r. split; [exact El|]. split; [exact Er|]. split.
  { destruct Pi as [->|[l' [El' H]]]; [specialize (L0 eq_refl); lra|]. congruence. }
  destruct (Z.eq_dec i (n - 1)) as [->|Ni]; [specialize (Ln eq_refl); lra|]. destruct E as [->|E]; [lia|].
  destruct (OV i) as [l0 [r0 [l1 [_ [Er' [El1 H]]]]]]; [lia|]. assert (r0 = r) by congruence. subst r0. apply (Rle_lt_trans _ l1); [|exact H].
  apply Rnot_lt_le. intros K. apply E. right. eauto.
Qed.

(** Without the condition data are lost: of the values 2^prec, 2^prec + 2, 2^prec + 4 (e.g. 2^53 ...)
    with two intervals and an overlap of up to 1/4, the second one is in no set. *)
Theorem uniform_cover_refuted g : num g -> 0 < g <= / 4 ->
  let a := bpow radix2 prec in
  (num a /\ num (a + 2) /\ num (a + 4)) /\ forall i, ~ in_uniform_set rnd a (a + 4) 2 g (a + 2) i.
Proof.
  intros Ng Hg a.
  assert (Pw : bpow radix2 (prec - 1) * 2 = a). { unfold a. change 2 with (bpow radix2 1). rewrite <- bpow_plus. f_equal. ring. }
  assert (Big : 8 <= bpow radix2 (prec - 1)) by (change 8 with (bpow radix2 3); apply bpow_le; lia).
  assert (Zp : forall z, (0 <= z <= 2)%Z -> num (a + IZR z * 2)).
  { intros z Hz. exists (2 ^ (prec - 1) + z)%Z, 1%Z. change (bpow radix2 1) with 2. rewrite plus_IZR. change (IZR (2 ^ (prec - 1))) with (IZR (Zpower radix2 (prec - 1))). rewrite IZR_Zpower by lia.
    split; [rewrite <- Pw; ring|]. split; [|lia]. assert (2 ^ prec = 2 * 2 ^ (prec - 1))%Z by (rewrite <- Z.pow_succ_r by lia; f_equal; lia). assert (2 ^ 3 <= 2 ^ (prec - 1))%Z by (apply Z.pow_le_mono_r; lia). lia. }
  assert (N0 : num a) by (replace a with (a + IZR 0 * 2) by ring; apply Zp; lia).
  assert (N2 : num (a + 2)) by (replace (a + 2) with (a + IZR 1 * 2) by ring; apply Zp; lia).
  assert (N4 : num (a + 4)) by (replace (a + 4) with (a + IZR 2 * 2) by ring; apply Zp; lia).
  split; [auto|].
  assert (Q : forall z, (Z.abs z < 16)%Z -> num (IZR z / 4)).
  { intros z Hz. exists z, (-2)%Z. change (bpow radix2 (-2)) with (/ 4). split; [reflexivity|]. split; [|lia]. assert (2 ^ 4 <= 2 ^ prec)%Z by (apply Z.pow_le_mono_r; lia). lia. }
  assert (R : forall t, 3 / 2 <= t <= 5 / 2 -> rnd (a + t) = a + 2).
  { intros t Ht. rewrite (rnd_at 1 (2 ^ (prec - 1) + 1)).
    - change (bpow radix2 1) with 2. rewrite plus_IZR. change (IZR (2 ^ (prec - 1))) with (IZR (Zpower radix2 (prec - 1))). rewrite IZR_Zpower by lia. rewrite <- Pw. ring.
    - apply cexp_large. rewrite bpow_plus. change (bpow radix2 1) with 2. fold a. rewrite Rabs_pos_eq; lra.
    - change (bpow radix2 1) with 2. rewrite plus_IZR. change (IZR (2 ^ (prec - 1))) with (IZR (Zpower radix2 (prec - 1))). rewrite IZR_Zpower by lia. apply Rabs_def1; lra. }
  assert (Bd : forall x lo hi, (Z.abs lo < 16)%Z -> (Z.abs hi < 16)%Z -> IZR lo / 4 <= x <= IZR hi / 4 -> IZR lo / 4 <= rnd x <= IZR hi / 4).
  { intros x lo hi Hl Hh H. split; [apply rnd_lower|apply rnd_upper]; try apply Q; lra || assumption. }
  assert (Den : 7 / 4 <= rnd (2 - rnd (1 * g)) <= 8 / 4) by (rewrite Rmult_1_l, (rnd_id g Ng); apply (Bd _ 7%Z 8%Z); [lia|lia|lra]).
  set (den := rnd (2 - rnd (1 * g))) in *.
  assert (T : rnd (a + 4 - a) = 4). { replace (a + 4 - a) with (IZR 4) by ring. apply rnd_id. apply num_IZR; [lia|]. assert (2 ^ 4 <= 2 ^ prec)%Z by (apply Z.pow_le_mono_r; lia). lia. }
  assert (Len : 8 / 4 <= rnd (4 / den) <= 10 / 4).
  { apply (Bd _ 8%Z 10%Z); [lia|lia|]. assert (E : 4 / den * den = 4) by (field; lra). split; apply Rnot_lt_le; intros K; nra. }
  set (len := rnd (4 / den)) in *.
  assert (B1 : 3 / 4 <= rnd (1 - g) <= 4 / 4) by (apply (Bd _ 3%Z 4%Z); [lia|lia|lra]).
  assert (B2 : 3 / 4 <= rnd (1 * rnd (1 - g)) <= 4 / 4) by (apply (Bd _ 3%Z 4%Z); [lia|lia|lra]).
  assert (B3 : 6 / 4 <= rnd (rnd (1 * rnd (1 - g)) * len) <= 10 / 4) by (apply (Bd _ 6%Z 10%Z); [lia|lia|nra]).
  intros i [l [r [El [Er [Hl Hr]]]]]. revert El Er. unfold limits. cbn [fst snd]. change (IZR (2 - 1)) with 1. fold den. rewrite T. fold len. rewrite (R (rnd (rnd (1 * rnd (1 - g)) * len))) by lra.
  unfold grid1, grid. change (2 =? 1)%Z with false. cbv iota. rewrite Znth_map. intros El Er.
  pose proof (Znth_Some_lt _ _ _ El) as Hi. rewrite zlen_tabZ in Hi by lia. rewrite Znth_tabZ in El, Er by exact Hi. cbn [option_map] in Er. injection El as <-. injection Er as <-.
  assert (C : i = 0%Z \/ i = 1%Z) by lia. destruct C as [-> | ->].
  - destruct Hr as [Hr|Hr]; [lia|]. cbn [Z.eqb Z.sub Z.add Z.opp Z.pos_sub] in Hr. rewrite offset_0 in Hr. rewrite (Rplus_0_l a), (rnd_id a N0) in Hr.  change (0 =? 1)%Z with false in Hr. cbv iota in Hr. rewrite (R len) in Hr by lra. lra.
  - destruct Hl as [Hl|Hl]; [lia|]. cbn in Hl. lra.
Qed.
End Format.

(** ** Examples in binary64 *)
Lemma b64_tiny : bpow radix2 (-1074 + 53) <= / 1024 * / 1024.
Proof. change (/ 1024) with (bpow radix2 (-10)). rewrite <- bpow_plus. apply bpow_le. lia. Qed.
Lemma b64_unit : unit_roundoff 53 <= / 1024 * / 1024 * / 1024.
Proof. unfold unit_roundoff. change (/ 1024) with (bpow radix2 (-10)). rewrite <- !bpow_plus. apply bpow_le. lia. Qed.
Lemma b64_int k : (Z.abs k <= 2 ^ 53)%Z -> number (-1074) 53 (IZR k).
Proof. apply num_IZR; lia. Qed.
(** The default of 100 bins, on diagrams with values between 0 and 1: the hypotheses of
    grid_rounding hold. *)
Example grid_example :
  number (-1074) 53 0 /\ number (-1074) 53 1 /\ (8 * (100 - 1) <= 2 ^ 53)%Z /\ bpow radix2 (-1074 + 53) * IZR (100 - 1) <= 1 - 0.
Proof.
  split; [apply b64_int; lia|]. split; [apply b64_int; lia|]. split; [lia|]. change (100 - 1)%Z with 99%Z. pose proof b64_tiny. lra.
Qed.
(** The default cover, 10 intervals and an overlap near 0.1, of data between -3 and 1000. *)
Example uniform_cover_example : forall g, 1 / 16 <= g < 1 ->
  forall x, exists i, (0 <= i < 10)%Z /\ in_uniform_set (nearest (-1074) 53) (-3) 1000 10 g x i.
Proof.
  intros g Hg. pose proof b64_tiny. pose proof b64_unit. assert (0 < unit_roundoff 53) by apply u_pos. apply uniform_cover_rounding; try lia; try lra.
  - rewrite max_abs by (apply Rabs_le; lra). change (10 * 10)%Z with 100%Z. nra.
  - change (10 * 10)%Z with 100%Z. nra.
Qed.
Example balanced_cover_example : forall g, 1 / 16 <= g < 1 ->
  forall x, (0 <= x < 1000)%Z -> exists i, (0 <= i < 10)%Z /\ in_balanced_set (nearest (-1074) 53) 1000 10 g x i.
Proof.
  intros g Hg. pose proof b64_unit. apply balanced_cover_rounding; try lia; try lra; change (10 * 10)%Z with 100%Z; lra.
Qed.
(** 2^53, 2^53 + 2 and 2^53 + 4 with an overlap of 1/8. *)
Example uniform_cover_lost : number (-1074) 53 (/ 8) /\
  forall i, ~ in_uniform_set (nearest (-1074) 53) (bpow radix2 53) (bpow radix2 53 + 4) 2 (/ 8) (bpow radix2 53 + 2) i.
Proof.
  assert (N : number (-1074) 53 (/ 8)). { exists 1%Z, (-3)%Z. change (bpow radix2 (-3)) with (/ 8). split; [ring|]. split; lia. }
  split; [exact N|]. apply (uniform_cover_refuted (-1074) 53); [lia|lia|exact N|lra].
Qed.
Example filtering_example : survives (nearest (-1074) 53) 0 (1, 2) = true /\ survives (nearest (-1074) 53) 1 (1, 2) = false.
Proof.
  assert (E : nearest (-1074) 53 (2 - 1) = 1). { replace (2 - 1) with (IZR 1) by (cbn; ring). apply rnd_id; [lia|apply b64_int; lia]. }
  unfold survives. cbn [fst snd]. rewrite E. split; destruct (Rlt_dec _ _); lra || reflexivity.
Qed.

Print Assumptions scaler_rounding.
Print Assumptions scaler_roundtrip_rounding.
Print Assumptions filtering_rounding.
Print Assumptions fiber_rounding.
Print Assumptions grid_rounding.
Print Assumptions grid_accuracy.
Print Assumptions grid_subnormal_refuted.
Print Assumptions cover_limits_rounding.
Print Assumptions uniform_cover_rounding.
Print Assumptions balanced_cover_rounding.
Print Assumptions uniform_cover_refuted.
