(** C09: PearsonDissimilarity. *)
From Coq Require Import Reals Lra.
From Verif Require Import Np NpFacts Fl RNp RNormFacts MetricSpec FeatModel StatModel StatSpec.
Open Scope Z_scope.
Local Notation SS := sum_of_products.

Lemma dot_centred u v : dot (centred u) (centred v) = SS u v.
Proof.
  unfold dot, SS, centred. change total with rsum. f_equal. change average with mean. generalize (mean u) (mean v). intros a b. revert v.
  induction u as [|x u IH]; intros [|y v]; cbn; auto. f_equal. apply IH.
Qed.
Lemma SS_sym u v : SS u v = SS v u.
Proof.
  unfold SS. generalize (mean u) (mean v). intros a b. revert v. induction u as [|x u IH]; intros [|y v]; cbn; auto. rewrite IH. ring.
Qed.
(** Sums over the pairs of centred values. *)
Lemma SS_pairs u v : length u = length v -> exists l : list (R * R),
  map fst l = centred u /\ map snd l = centred v /\ SS u v = rsum (map (fun p => fst p * snd p)%R l) /\
  SS u u = rsum (map (fun p => fst p * fst p)%R l) /\ SS v v = rsum (map (fun p => snd p * snd p)%R l).
Proof.
  intro L. rewrite <- !dot_centred. exists (combine (centred u) (centred v)).
  assert (L' : length (centred u) = length (centred v)) by (unfold centred; now rewrite !map_length).
  revert L'. generalize (centred u) (centred v). clear. induction l as [|a l IH]; intros [|b r]; intro L; try easy; cbn.
  - destruct (IH r) as (A & B & C & D & E); [cbn in L; lia|]. split; [now f_equal|]. split; [now f_equal|]. split; [reflexivity|]. split.
    + unfold dot in D. unfold rsum in D. now rewrite D.
    + unfold dot in E. unfold rsum in E. now rewrite E.
Qed.
Lemma sq_nonneg x : (0 <= x * x)%R. Proof. nra. Qed.
Lemma SS_nonneg u : (0 <= SS u u)%R.
Proof.
  destruct (SS_pairs u u eq_refl) as (l & _ & _ & _ & E & _). rewrite E. apply rsum_nonneg. intros x I. apply in_map_iff in I as (p & <- & I). apply sq_nonneg.
Qed.
Lemma SS_quadratic u v a b : length u = length v -> exists l : list (R * R), map fst l = centred u /\ map snd l = centred v /\
  (rsum (map (fun p => (a * fst p - b * snd p) * (a * fst p - b * snd p)) l) = a * a * SS u u - 2 * a * b * SS u v + b * b * SS v v)%R.
Proof.
  intro L. destruct (SS_pairs u v L) as (l & A & B & -> & -> & ->). exists l. repeat split; auto. clear. induction l as [|p l IH]; cbn [map]; rewrite ?rsum_cons; [cbn; ring|]. rewrite IH. ring.
Qed.
Lemma cauchy_schwarz u v : length u = length v -> (SS u v * SS u v <= SS u u * SS v v)%R.
Proof.
  intro L. destruct (SS_quadratic u v (SS v v) (SS u v) L) as (l & _ & _ & E).
  assert (0 <= rsum (map (fun p => (SS v v * fst p - SS u v * snd p) * (SS v v * fst p - SS u v * snd p)) l))%R as N.
  { apply rsum_nonneg. intros x I. apply in_map_iff in I as (p & <- & _). apply sq_nonneg. }
  rewrite E in N. pose proof (SS_nonneg v) as P. destruct (Rle_lt_or_eq_dec _ _ P) as [P'|P'].
  - assert (0 <= SS v v * (SS u u * SS v v - SS u v * SS u v))%R by nra. destruct (Rle_lt_dec 0 (SS u u * SS v v - SS u v * SS u v)); nra.
  - (* v constant *) rewrite <- P' in *. destruct (Req_EM_T (SS u v) 0) as [Z0|NZ]; [rewrite Z0; lra|].
    destruct (SS_quadratic u v 1 ((SS u u + 1) / (2 * SS u v)) L) as (l' & _ & _ & E').
    assert (N' : (0 <= 1 * 1 * SS u u - 2 * 1 * ((SS u u + 1) / (2 * SS u v)) * SS u v)%R).
    { rewrite <- P', Rmult_0_r, Rplus_0_r in E'. rewrite <- E'. apply rsum_nonneg. intros x I. apply in_map_iff in I as (p & <- & _). apply sq_nonneg. }
    replace (2 * 1 * ((SS u u + 1) / (2 * SS u v)) * SS u v)%R with (SS u u + 1)%R in N' by (field; auto). lra.
Qed.
Lemma SS_zero u : SS u u = 0%R <-> constant u.
Proof.
  destruct (SS_pairs u u eq_refl) as (l & A & _ & _ & E & _). split.
  - intros Z0. rewrite E in Z0.
    assert (G : forall a, In a (centred u) -> a = 0%R).
    { intros a I. rewrite <- A in I. apply in_map_iff in I as (p & <- & I).
      assert (fst p * fst p = 0)%R; [|nra].
      apply (rsum_eq0 (map (fun p => fst p * fst p)%R l)); auto; [|apply in_map_iff; eauto].
      intros x J. apply in_map_iff in J as (q & <- & _). apply sq_nonneg. }
    intros a b Ia Ib. assert (a - average u = 0)%R by (apply G; unfold centred; apply in_map_iff; eauto).
    assert (b - average u = 0)%R by (apply G; unfold centred; apply in_map_iff; eauto). lra.
  - intro C. destruct u as [|x u0] eqn:EU; [reflexivity|]. rewrite <- EU in *.
    assert (M : mean u = x).
    { assert (T : forall w, (forall a, In a w -> a = x) -> total w = (x * IZR (zlen w))%R).
      { induction w as [|a w IH]; intro H; [cbn; change (zlen (@nil R)) with 0; ring|]. rewrite zlen_cons, plus_IZR. cbn [total].
        rewrite IH by (intros; apply H; now right). rewrite (H a) by now left. ring. }
      unfold mean. rewrite T by (intros; apply C; auto; subst u; now left). field. apply not_0_IZR. subst u. rewrite zlen_cons. pose proof (zlen_nonneg u0). lia. }
    unfold SS. rewrite M. assert (G : forall a, In a u -> a = x) by (intros; apply C; auto; subst u; now left).
    clear - G. induction u as [|a u IH]; [reflexivity|]. cbn. rewrite IH by (intros; apply G; now right). rewrite (G a) by now left. ring.
Qed.
Lemma SS_pos u : ~ constant u -> (0 < SS u u)%R.
Proof. intro N. pose proof (SS_nonneg u). destruct (Rle_lt_or_eq_dec _ _ H); auto. exfalso. now apply N, SS_zero. Qed.

(** The correlation lies between -1 and 1. *)
Lemma correlation_bounds u v : length u = length v -> ~ constant u -> ~ constant v -> (-1 <= pearson_correlation u v <= 1)%R.
Proof.
  intros L Nu Nv. pose proof (SS_pos u Nu) as Pu. pose proof (SS_pos v Nv) as Pv. pose proof (cauchy_schwarz u v L) as C.
  unfold pearson_correlation. set (s := (sqrt (SS u u) * sqrt (SS v v))%R).
  assert (Ps : (0 < s)%R) by (apply Rmult_lt_0_compat; now apply sqrt_lt_R0).
  assert (S2 : (s * s = SS u u * SS v v)%R).
  { unfold s. replace (sqrt (SS u u) * sqrt (SS v v) * (sqrt (SS u u) * sqrt (SS v v)))%R with ((sqrt (SS u u) * sqrt (SS u u)) * (sqrt (SS v v) * sqrt (SS v v)))%R by ring.
    rewrite !sqrt_sqrt by lra. reflexivity. }
  rewrite <- S2 in C. assert (-s <= SS u v <= s)%R by (split; nra). split.
  - apply Rmult_le_reg_r with s; auto. unfold Rdiv. rewrite Rmult_assoc, Rinv_l by lra. lra.
  - apply Rmult_le_reg_r with s; auto. unfold Rdiv. rewrite Rmult_assoc, Rinv_l by lra. lra.
Qed.
Lemma correlation_refl u : ~ constant u -> pearson_correlation u u = 1%R.
Proof.
  intro N. unfold pearson_correlation. pose proof (SS_pos u N). rewrite sqrt_sqrt by lra. field. lra.
Qed.
Lemma correlation_sym u v : pearson_correlation u v = pearson_correlation v u.
Proof. unfold pearson_correlation. rewrite SS_sym. f_equal. ring. Qed.

(** Affine changes of one column. *)
Lemma mean_affine a b u v : u <> [] -> affine a b u v -> mean v = (a * mean u + b)%R.
Proof.
  intros N F. unfold mean. pose proof (Forall2_zlen _ _ _ F) as L. rewrite <- L.
  assert (T : total v = (a * total u + b * IZR (zlen u))%R).
  { clear N L. induction F as [|x y u v -> F IH]; [cbn; change (zlen (@nil R)) with 0; ring|]. cbn [total]. rewrite IH, zlen_cons, plus_IZR. ring. }
  rewrite T. field. apply not_0_IZR. destruct u as [|x u]; [easy|]. rewrite zlen_cons. pose proof (zlen_nonneg u). lia.
Qed.
Lemma SS_affine a b u v w : affine a b u v -> SS v w = (a * SS u w)%R.
Proof.
  intro F. destruct u as [|x u0] eqn:EU; [inversion F; subst; cbn; ring|]. rewrite <- EU in *.
  pose proof (mean_affine a b u v ltac:(now subst u) F) as M. unfold SS. rewrite M. generalize (mean w). clear EU M. generalize (mean u). intros m n. clear - F. revert w.
  induction F as [|x y u v -> F IH]; intros [|z w]; cbn; try ring. rewrite IH. ring.
Qed.
Lemma constant_affine a b u v : a <> 0%R -> affine a b u v -> (constant u <-> constant v).
Proof.
  intros N F. rewrite <- !SS_zero. rewrite (SS_affine a b u v v F), (SS_sym u v), (SS_affine a b u v u F). split; intro H; [rewrite H; ring|].
  apply Rmult_integral in H as [?|H]; [easy|]. apply Rmult_integral in H as [?|H]; [easy|auto].
Qed.
Lemma correlation_affine a b u v w : (0 < a)%R -> affine a b u v -> pearson_correlation v w = pearson_correlation u w.
Proof.
  intros P F. unfold pearson_correlation. rewrite (SS_affine a b u v v F), (SS_sym u v), (SS_affine a b u v u F), (SS_affine a b u v w F).
  replace (a * (a * SS u u))%R with ((a * a) * SS u u)%R by ring. rewrite sqrt_mult_alt by nra. rewrite sqrt_square by lra.
  assert (Q : forall x y, (a * x / (a * y) = x / y)%R).
  { intros x y. destruct (Req_EM_T y 0) as [->|N]; [rewrite Rmult_0_r; unfold Rdiv; rewrite Rinv_0; ring|]. field. lra. }
  rewrite Rmult_assoc. apply Q.
Qed.
Lemma correlation_neg_affine a b u v : (a < 0)%R -> ~ constant u -> affine a b u v -> pearson_correlation u v = (-1)%R.
Proof.
  intros P N F. unfold pearson_correlation. rewrite (SS_affine a b u v v F), (SS_sym u v), (SS_affine a b u v u F).
  replace (a * (a * SS u u))%R with (((-a) * (-a)) * SS u u)%R by ring. rewrite sqrt_mult_alt by nra. rewrite sqrt_square by lra.
  pose proof (SS_pos u N). replace (sqrt (SS u u) * (- a * sqrt (SS u u)))%R with (-a * (sqrt (SS u u) * sqrt (SS u u)))%R by ring. rewrite sqrt_sqrt by lra. field. lra.
Qed.
(** Equality in the bounds. *)
Lemma correlation_extreme u v : length u = length v -> ~ constant u -> ~ constant v ->
  (Rabs (pearson_correlation u v) = 1)%R -> exists a b, affine a b u v /\ a = (SS u v / SS u u)%R.
Proof.
  intros L Nu Nv E. pose proof (SS_pos u Nu) as Pu. pose proof (SS_pos v Nv) as Pv.
  assert (S2 : (SS u v * SS u v = SS u u * SS v v)%R).
  { unfold pearson_correlation in E. set (s := (sqrt (SS u u) * sqrt (SS v v))%R) in *.
    assert (Ps : (0 < s)%R) by (apply Rmult_lt_0_compat; now apply sqrt_lt_R0).
    assert (S2 : (s * s = SS u u * SS v v)%R).
    { unfold s. replace (sqrt (SS u u) * sqrt (SS v v) * (sqrt (SS u u) * sqrt (SS v v)))%R with ((sqrt (SS u u) * sqrt (SS u u)) * (sqrt (SS v v) * sqrt (SS v v)))%R by ring.
      rewrite !sqrt_sqrt by lra. reflexivity. }
    rewrite <- S2. assert (SS u v / s * s = SS u v)%R as Q by (field; lra).
    assert ((SS u v / s) * (SS u v / s) = 1)%R as O.
    { unfold Rabs in E. destruct (Rcase_abs _); nra. }
    rewrite <- Q. replace (SS u v / s * s * (SS u v / s * s))%R with ((SS u v / s) * (SS u v / s) * (s * s))%R by ring. rewrite O. ring. }
  destruct (SS_quadratic u v (SS u v) (SS u u) L) as (l & A & B & Q).
  assert (Z0 : rsum (map (fun p => (SS u v * fst p - SS u u * snd p) * (SS u v * fst p - SS u u * snd p))%R l) = 0%R) by (rewrite Q; nra).
  assert (G : forall p, In p l -> (SS u v * fst p = SS u u * snd p)%R).
  { intros p I. assert ((SS u v * fst p - SS u u * snd p) * (SS u v * fst p - SS u u * snd p) = 0)%R; [|nra].
    apply (rsum_eq0 _ ltac:(intros x J; apply in_map_iff in J as (q & <- & _); apply sq_nonneg) Z0). apply in_map_iff. eauto. }
  exists (SS u v / SS u u)%R, (mean v - SS u v / SS u u * mean u)%R. split; auto.
  assert (F : Forall2 (fun x y => SS u v * x = SS u u * y)%R (centred u) (centred v)).
  { rewrite <- A, <- B. clear - G. induction l as [|p l IH]; cbn; constructor; [apply G; now left|apply IH; intros; apply G; now right]. }
  unfold centred in F. change average with mean in F. unfold affine. clear - F Pu. revert F Pu. generalize (SS u v) (SS u u) (mean u) (mean v). intros s t m n F Pt. revert v F.
  induction u as [|x u IH]; intros [|y v] F; inversion F; subst; constructor; auto.
  assert (s / t * (x - m) = y - n)%R; [|lra]. apply Rmult_eq_reg_l with t; [|lra]. rewrite <- H2. field. lra.
Qed.

(** ** The transformer. *)
Lemma column_ok x n d j : table x n d -> 0 <= j < d -> is_column x j (column x j).
Proof.
  intros (_ & _ & _ & U) B. unfold is_column, column. induction x as [|row x IH]; cbn; constructor.
  - destruct (Znth_ex row j) as [v ->]; auto. now rewrite U by now left.
  - apply IH. intros; apply U; now right.
Qed.
Lemma is_column_unique x j u v : is_column x j u -> is_column x j v -> u = v.
Proof. intro F. revert v. induction F; intros w G; inversion G; subst; auto. f_equal; auto; congruence. Qed.
Lemma pearson1_entry absolute x n d i j u v : table x n d -> 0 <= i < d -> 0 <= j < d -> is_column x i u -> is_column x j v ->
  exists row a, Znth (pearson1 absolute x d) i = Some row /\ Znth row j = Some a /\
    (2 <= n -> ~ constant u -> ~ constant v ->
       a = XFin (if absolute then 1 - Rabs (pearson_correlation u v) else (1 - pearson_correlation u v) / 2)%R) /\
    (n = 1 \/ constant u \/ constant v -> a = XNaN).
Proof.
  intros T Bi Bj Cu Cv. assert (u = column x i) as Eu by (eapply is_column_unique; eauto; eapply column_ok; eauto).
  assert (v = column x j) as Ev by (eapply is_column_unique; eauto; eapply column_ok; eauto).
  destruct T as (N1 & D1 & LX & U).
  assert (CV : forall a b, np_cov x a b = if n =? 1 then XNaN else XFin (SS (column x a) (column x b) * (1 / IZR (n - 1)))%R).
  { intros a b. unfold np_cov. rewrite LX, dot_centred. destruct (Z.leb_spec (n - 1) 0), (Z.eqb_spec n 1); auto; lia. }
  set (f := fun c => if negb absolute then (1 / 2 - c / 2)%R else (1 - Rabs c)%R).
  assert (LE : length u = length v) by (subst; unfold column; now rewrite !map_length).
  assert (ENT : forall a, (exists row, Znth (np_corrcoef x d) i = Some row /\ Znth row j = Some a) ->
     exists row, Znth (pearson1 absolute x d) i = Some row /\ Znth row j = Some (xmap f a)).
  { intros a (row & Hr & Ha). unfold pearson1. exists (map (xmap f) row). rewrite Znth_map, Hr. cbn [option_map]. split; [reflexivity|]. now rewrite Znth_map, Ha. }
  assert (VAL : exists a, (exists row, Znth (np_corrcoef x d) i = Some row /\ Znth row j = Some a) /\
    (2 <= n -> ~ constant u -> ~ constant v -> a = XFin (pearson_correlation u v)) /\ (n = 1 \/ constant u \/ constant v -> a = XNaN)).
  { unfold np_corrcoef. destruct (Z.eqb_spec d 1) as [->|ND].
    - assert (i = 0) as -> by lia. assert (j = 0) as -> by lia. rewrite <- Ev in Eu. subst u. rewrite CV, <- Ev.
      eexists. split; [eexists; split; reflexivity|]. split.
      + intros N2 NC _. destruct (Z.eqb_spec n 1); [lia|]. rewrite correlation_refl by auto. pose proof (SS_pos v NC). cbn [xdiv].
        assert (0 < IZR (n - 1))%R by (apply IZR_lt; lia).
        assert (0 < SS v v * (1 / IZR (n - 1)))%R by (apply Rmult_lt_0_compat; auto; apply Rdiv_lt_0_compat; lra).
        destruct (Req_EM_T _ 0); [lra|]. f_equal. field. split; lra.
      + intros C. destruct (Z.eqb_spec n 1) as [|N]; [reflexivity|]. assert (constant v) as K by tauto. apply SS_zero in K. rewrite K. cbn [xdiv].
        destruct (Req_EM_T _ 0) as [|Q]; [reflexivity|]; exfalso; apply Q; ring.
    - eexists. split.
      { eexists. rewrite Znth_tabZ by lia. split; [reflexivity|]. rewrite Znth_tabZ by lia. reflexivity. }
      rewrite !CV, <- Eu, <- Ev. destruct (Z.eqb_spec n 1) as [E|N].
      + split; [lia|]. reflexivity.
      + assert (P : (0 < 1 / IZR (n - 1))%R) by (apply Rdiv_lt_0_compat; [lra|apply IZR_lt; lia]).
        assert (SQ : forall s, sqrt (s * (1 / IZR (n - 1))) = (sqrt s * sqrt (1 / IZR (n - 1)))%R).
        { intros s. rewrite (Rmult_comm s), (Rmult_comm (sqrt s)). apply sqrt_mult_alt. lra. }
        cbn [xsqrt]. rewrite !SQ. set (q := sqrt (1 / IZR (n - 1))). assert (Q2 : (1 / IZR (n - 1) = q * q)%R) by (unfold q; rewrite sqrt_sqrt; lra).
        assert (Pq : (0 < q)%R) by (apply sqrt_lt_R0; lra). rewrite Q2. split.
        * intros _ Nu Nv. pose proof (SS_pos u Nu) as Pu. pose proof (SS_pos v Nv) as Pv.
          pose proof (sqrt_lt_R0 _ Pu) as Ru. pose proof (sqrt_lt_R0 _ Pv) as Rv.
          cbn [xdiv]. destruct (Req_EM_T _ 0) as [Z0|_]; [exfalso; nra|]. cbn [xdiv]. destruct (Req_EM_T _ 0) as [Z0|_]; [exfalso; nra|].
          replace (SS u v * (q * q) / (sqrt (SS u u) * q) / (sqrt (SS v v) * q))%R with (pearson_correlation u v) by (unfold pearson_correlation; field; repeat split; lra).
          pose proof (correlation_bounds u v LE Nu Nv). cbn [xclip]. f_equal. rewrite Rmax_left, Rmin_left by lra. reflexivity.
        * intros [?|C]; [easy|]. assert (Z0 : SS u v = 0%R).
          { pose proof (cauchy_schwarz u v LE) as CS. destruct C as [C|C]; apply SS_zero in C; rewrite C in CS; nra. }
          rewrite Z0. rewrite Rmult_0_l. destruct C as [C|C].
          -- apply SS_zero in C. rewrite C, sqrt_0, Rmult_0_l. cbn [xdiv]. destruct (Req_EM_T 0 0); [|lra]. reflexivity.
          -- apply SS_zero in C. rewrite C, sqrt_0, Rmult_0_l. cbn [xdiv].
             destruct (Req_EM_T (sqrt (SS u u) * q) 0); [destruct (Req_EM_T 0 0); [reflexivity|lra]|]. unfold Rdiv. rewrite Rmult_0_l. cbn [xdiv].
             destruct (Req_EM_T 0 0); [reflexivity|lra]. }
  destruct VAL as (a & E & V1 & V2). destruct (ENT a E) as (row & Hr & Ha). exists row, (xmap f a). split; [auto|]. split; [auto|]. split.
  - intros N2 Nu Nv. rewrite (V1 N2 Nu Nv). cbn. f_equal. unfold f. destruct absolute; cbn; [reflexivity|lra].
  - intro C. now rewrite (V2 C).
Qed.

Lemma pearson1_square absolute x d : 1 <= d -> zlen (pearson1 absolute x d) = d /\ forall row, In row (pearson1 absolute x d) -> zlen row = d.
Proof.
  intro D. unfold pearson1, np_corrcoef. destruct (Z.eqb_spec d 1) as [->|N].
  - split; [reflexivity|]. intros row [<-|[]]. reflexivity.
  - rewrite zlen_map, zlen_tabZ by lia. split; [reflexivity|]. intros row I. apply in_map_iff in I as (r & <- & I). rewrite zlen_map.
    apply In_Znth in I as (i & Bi & Hi). rewrite zlen_tabZ in Bi by lia. rewrite Znth_tabZ in Hi by lia. injection Hi as <-. rewrite zlen_tabZ; lia.
Qed.

(** transform: for each sample the matrix (1 - r) / 2, or 1 - |r|, where r is Pearson's correlation of
    two columns; NaN if a column is constant or there is one row only. *)
Theorem pearson_spec absolute X n d : X <> [] -> 1 <= d -> (forall x, In x X -> table x n d) ->
  exists V, pearson absolute X d = Ok V /\
    Forall2 (fun x M => zlen M = d /\ (forall row, In row M -> zlen row = d) /\
      forall i j row a u v, Znth M i = Some row -> Znth row j = Some a -> is_column x i u -> is_column x j v ->
        (2 <= n -> ~ constant u -> ~ constant v ->
          a = XFin (if absolute then 1 - Rabs (pearson_correlation u v) else (1 - pearson_correlation u v) / 2)%R) /\
        (n = 1 \/ constant u \/ constant v -> a = XNaN)) X V.
Proof.
  intros N D T. unfold pearson. destruct X as [|x0 X0] eqn:EX; [easy|]. rewrite <- EX in *. clear N EX. eexists. split; [reflexivity|].
  induction X as [|x X IH]; cbn [map]; constructor; [|apply IH; intros; apply T; now right].
  destruct (pearson1_square absolute x d D) as [S1 S2]. split; auto. split; auto. intros i j row a u v Hi Hj Cu Cv.
  pose proof (Znth_Some_lt _ _ _ Hi) as Bi. pose proof (Znth_Some_lt _ _ _ Hj) as Bj. rewrite (S2 row (Znth_In _ _ _ Hi)) in Bj.
  destruct (pearson1_entry absolute x n d i j u v (T x (or_introl eq_refl)) ltac:(lia) Bj Cu Cv) as (row' & a' & Hi' & Hj' & V).
  rewrite Hi in Hi'. injection Hi' as <-. rewrite Hj in Hj'. injection Hj' as <-. exact V.
Qed.

Lemma column_length x i u : is_column x i u -> length x = length u.
Proof. apply Forall2_length. Qed.
(** For series without constant columns the matrices are dissimilarities with values from 0 to 1.  The
    value is 0 exactly if one column is an increasing affine function of the other (with absolute_value:
    any non-constant affine function), and 1 exactly if it is a decreasing one (with absolute_value: if
    the columns are uncorrelated). *)
Theorem pearson_dissimilarity absolute X n d V x M : 1 <= d -> 2 <= n -> (forall x, In x X -> table x n d) ->
  (forall x j u, In x X -> is_column x j u -> ~ constant u) ->
  pearson absolute X d = Ok V -> In (x, M) (combine X V) ->
  exists m : Z -> Z -> R,
    M = map (fun i => map (fun j => XFin (m i j)) (arange d)) (arange d) /\
    (forall i j, m i j = m j i) /\
    (forall i j u v, is_column x i u -> is_column x j v ->
       (m i i = 0 /\ 0 <= m i j <= 1)%R /\
       (m i j = 0%R <-> exists a b, a <> 0%R /\ (absolute = false -> 0 < a)%R /\ affine a b u v) /\
       (m i j = 1%R <-> if absolute then pearson_correlation u v = 0%R else exists a b, (a < 0)%R /\ affine a b u v)).
Proof.
  intros D N T C E I. assert (NX : X <> []) by (intros ->; destruct I).
  destruct (pearson_spec absolute X n d NX D T) as (V' & E' & F). rewrite E in E'. injection E' as <-.
  apply In_Znth in I as (k & Bk & Hk). pose proof (Forall2_zlen _ _ _ F) as LXV.
  assert (Bk' : 0 <= k < zlen X) by (unfold zlen in *; rewrite combine_length in Bk; lia).
  destruct (Znth_ex X k) as [x' Ex]; [lia|]. destruct (Znth_ex V k) as [M' EM]; [lia|].
  rewrite (Znth_combine _ _ _ _ _ Ex EM) in Hk. injection Hk as -> ->.
  destruct (Forall2_Znth _ _ _ _ _ _ F Ex EM) as (LM & LR & SP). pose proof (Znth_In _ _ _ Ex) as Ix. pose proof (T x Ix) as Tx.
  set (r := fun i j => pearson_correlation (column x i) (column x j)).
  exists (fun i j => if absolute then 1 - Rabs (r i j) else (1 - r i j) / 2)%R. split; [|split].
  - apply Znth_ext; [rewrite zlen_map, zlen_arange; lia|]. intros i Bi. rewrite Znth_map, Znth_arange by lia. cbn [option_map].
    destruct (Znth_ex M i Bi) as [row Hr]. rewrite Hr. f_equal. pose proof (LR row (Znth_In _ _ _ Hr)) as Lrow.
    apply Znth_ext; [rewrite zlen_map, zlen_arange; lia|]. intros j Bj. rewrite Znth_map, Znth_arange by lia. cbn [option_map].
    destruct (Znth_ex row j Bj) as [a Ha]. rewrite Ha. f_equal. assert (Ci : is_column x i (column x i)) by (eapply column_ok; eauto; lia).
    assert (Cj : is_column x j (column x j)) by (eapply column_ok; eauto; lia).
    destruct (SP i j row a _ _ Hr Ha Ci Cj) as [S _]. rewrite S; eauto.
  - intros i j. unfold r. rewrite (correlation_sym (column x i)). reflexivity.
  - intros i j u v Cu Cv. pose proof (C x i u Ix Cu) as Nu. pose proof (C x j v Ix Cv) as Nv.
    assert (LE : length u = length v) by (rewrite <- (column_length _ _ _ Cu), <- (column_length _ _ _ Cv); reflexivity).
    assert (BC : forall q w, is_column x q w -> column x q = w).
    { intros q w H. assert (0 <= q < d).
      { destruct Tx as (_ & _ & Lx & U). destruct x as [|row x]; [unfold zlen in Lx; cbn in Lx; lia|]. inversion H as [|? ? ? ? Hq]; subst. apply Znth_Some_lt in Hq.
        rewrite (U row) in Hq by now left. auto. }
      eapply is_column_unique; eauto. eapply column_ok; eauto. }
    unfold r. rewrite (BC i u Cu), (BC j v Cv). rewrite correlation_refl by auto. pose proof (correlation_bounds u v LE Nu Nv) as B.
    assert (POS : forall a b, affine a b u v -> a <> 0%R).
    { intros a b A ->. apply Nv. apply SS_zero. rewrite (SS_affine 0 b u v v A). ring. }
    assert (UP : forall a b, (0 < a)%R -> affine a b u v -> pearson_correlation u v = 1%R).
    { intros a b P A. rewrite correlation_sym, (correlation_affine a b u v u P A). now apply correlation_refl. }
    assert (DOWN : forall a b, (a < 0)%R -> affine a b u v -> pearson_correlation u v = (-1)%R) by (intros a b P A; eapply correlation_neg_affine; eauto).
    assert (EX : (Rabs (pearson_correlation u v) = 1)%R -> exists a b, affine a b u v) by (intro H; destruct (correlation_extreme u v LE Nu Nv H) as (a & b & A & _); eauto).
    split; [split|split].
    + destruct absolute; [rewrite Rabs_R1; lra|lra].
    + destruct absolute; [|lra]. split; unfold Rabs; destruct (Rcase_abs _); lra.
    + split.
      * intro Z0. assert (Rabs (pearson_correlation u v) = 1)%R as R1.
        { destruct absolute; [lra|]. replace (pearson_correlation u v) with 1%R by lra. apply Rabs_R1. }
        destruct (EX R1) as (a & b & A). exists a, b. split; [eauto|]. split; auto. intros ->.
        pose proof (POS a b A). destruct (Rtotal_order a 0) as [L|[L|L]]; [|easy|lra]. pose proof (DOWN a b L A). lra.
      * intros (a & b & NZ & P & A). destruct absolute; [|rewrite (UP a b) by auto; lra].
        destruct (Rtotal_order a 0) as [L|[L|L]]; [|easy|rewrite (UP a b) by auto; rewrite Rabs_R1; lra].
        rewrite (DOWN a b) by auto. unfold Rabs. destruct (Rcase_abs _); lra.
    + destruct absolute; split.
      * intro H. unfold Rabs in H. destruct (Rcase_abs _); lra.
      * intros ->. rewrite Rabs_R0. lra.
      * intro H. assert (pearson_correlation u v = -1)%R as H1 by lra. destruct EX as (a & b & A); [rewrite H1; unfold Rabs; destruct (Rcase_abs _); lra|].
        exists a, b. split; auto. pose proof (POS a b A). destruct (Rtotal_order a 0) as [L|[L|L]]; [auto|easy|]. pose proof (UP a b L A). lra.
      * intros (a & b & L & A). rewrite (DOWN a b L A). lra.
Qed.

(** Increasing affine changes of the columns do not change the result. *)
Theorem pearson_affine_invariant absolute X X' n d : 1 <= d -> (forall x, In x X -> table x n d) -> (forall x, In x X' -> table x n d) ->
  Forall2 (fun x x' => forall j u v, is_column x j u -> is_column x' j v -> exists a b, (0 < a)%R /\ affine a b u v) X X' ->
  pearson absolute X d = pearson absolute X' d.
Proof.
  intros D T T' F. destruct X as [|x0 X0] eqn:EX; [inversion F; reflexivity|]. destruct X' as [|x1 X1] eqn:EX'; [inversion F|]. rewrite <- EX, <- EX' in *.
  assert (pearson absolute X d = Ok (map (fun x => pearson1 absolute x d) X)) as -> by (subst; reflexivity).
  assert (pearson absolute X' d = Ok (map (fun x => pearson1 absolute x d) X')) as -> by (subst; reflexivity). f_equal. clear EX EX'.
  induction F as [|x x' X X' A F IH]; [reflexivity|]. cbn [map]. f_equal; [|apply IH; intros; [apply T|apply T']; now right].
  clear IH F. pose proof (T x (or_introl eq_refl)) as Tx. pose proof (T' x' (or_introl eq_refl)) as Tx'. clear T T'.
  destruct (pearson1_square absolute x d D) as [S1 S2]. destruct (pearson1_square absolute x' d D) as [S1' S2'].
  apply Znth_ext; [lia|]. intros i Bi. destruct (Znth_ex (pearson1 absolute x d) i Bi) as [r Hr]. destruct (Znth_ex (pearson1 absolute x' d) i) as [r' Hr']; [lia|].
  rewrite Hr, Hr'. f_equal. pose proof (S2 _ (Znth_In _ _ _ Hr)) as Lr. pose proof (S2' _ (Znth_In _ _ _ Hr')) as Lr'.
  apply Znth_ext; [lia|]. intros j Bj.
  assert (Ci : is_column x i (column x i)) by (eapply column_ok; eauto; lia). assert (Cj : is_column x j (column x j)) by (eapply column_ok; eauto; lia).
  assert (Ci' : is_column x' i (column x' i)) by (eapply column_ok; eauto; lia). assert (Cj' : is_column x' j (column x' j)) by (eapply column_ok; eauto; lia).
  destruct (A i _ _ Ci Ci') as (a & b & Pa & Aa). destruct (A j _ _ Cj Cj') as (a2 & b2 & Pa2 & Aa2).
  destruct (pearson1_entry absolute x n d i j _ _ Tx ltac:(lia) ltac:(lia) Ci Cj) as (row & e & Hrow & He & V1 & V2).
  destruct (pearson1_entry absolute x' n d i j _ _ Tx' ltac:(lia) ltac:(lia) Ci' Cj') as (row' & e' & Hrow' & He' & V1' & V2').
  rewrite Hr in Hrow. injection Hrow as <-. rewrite Hr' in Hrow'. injection Hrow' as <-. rewrite He, He'. f_equal.
  pose proof (constant_affine a b _ _ ltac:(lra) Aa) as K1. pose proof (constant_affine a2 b2 _ _ ltac:(lra) Aa2) as K2.
  assert (PC : pearson_correlation (column x' i) (column x' j) = pearson_correlation (column x i) (column x j)).
  { rewrite (correlation_affine a b _ _ _ Pa Aa), correlation_sym, (correlation_affine a2 b2 _ _ _ Pa2 Aa2). apply correlation_sym. }
  destruct (Z.eq_dec n 1) as [N1|N1]; [rewrite V2, V2' by auto; reflexivity|]. destruct Tx as (N0 & _).
  destruct (Req_EM_T (SS (column x i) (column x i)) 0) as [Z0|Z0]; [apply SS_zero in Z0; rewrite V2, V2' by tauto; reflexivity|].
  destruct (Req_EM_T (SS (column x j) (column x j)) 0) as [Z1|Z1]; [apply SS_zero in Z1; rewrite V2, V2' by tauto; reflexivity|].
  rewrite SS_zero in Z0, Z1. rewrite V1, V1' by (try lia; tauto). now rewrite PC.
Qed.

(** Two series with two points: the second column falls where the first one rises. *)
Example pearson_example : exists m, pearson false [[[0; 1]; [1; -1]]]%R 2 = Ok [m] /\
  m = [[XFin 0; XFin 1]; [XFin 1; XFin 0]]%R.
Proof.
  set (x := [[0; 1]; [1; -1]]%R). assert (T : table x 2 2) by (repeat split; try lia; intros row [<-|[<-|[]]]; reflexivity).
  assert (TT : forall y, In y [x] -> table y 2 2) by (intros y [<-|[]]; exact T).
  assert (C0 : is_column x 0 [0; 1]%R) by repeat constructor. assert (C1 : is_column x 1 [1; -1]%R) by repeat constructor.
  assert (NC : forall y j u, In y [x] -> is_column y j u -> ~ constant u).
  { intros y j u [<-|[]] H K. assert (0 <= j < 2) by (inversion H as [|? ? ? ? Hq]; subst; apply Znth_Some_lt in Hq; exact Hq).
    assert (j = 0 \/ j = 1) as [->| ->] by lia.
    - rewrite (is_column_unique _ _ _ _ H C0) in K. specialize (K 0 1 ltac:(now left) ltac:(right; now left))%R. lra.
    - rewrite (is_column_unique _ _ _ _ H C1) in K. specialize (K 1 (-1) ltac:(now left) ltac:(right; now left))%R. lra. }
  destruct (pearson_dissimilarity false [x] 2 2 [pearson1 false x 2] x (pearson1 false x 2) ltac:(lia) ltac:(lia) TT NC eq_refl ltac:(now left)) as (m & E & S & P).
  exists (pearson1 false x 2). split; [reflexivity|]. rewrite E. change (arange 2) with [0; 1]. cbn [map].
  destruct (P 0 1 _ _ C0 C1) as ((Z0 & _) & _ & O). destruct (P 1 0 _ _ C1 C0) as ((Z1 & _) & _).
  rewrite Z0, Z1, (S 1 0). assert (m 0 1 = 1%R) as ->; [|reflexivity]. apply O. exists (-2)%R, 1%R. split; [lra|]. repeat constructor; lra.
Qed.
Print Assumptions pearson_dissimilarity.
