(** Entropy and counting. *)
From Coq Require Import Reals Lra Permutation.
From Verif Require Import Np NpFacts Fl FlFacts DiagTypes DiagModel DiagSpec DiagProofs DiagProofs2
  VecModel VecSpec SliceFacts VecProofs VecProofs2 VecProofs3 VecProofs4 RNp RNormFacts MetricModel MetricSpec MetricProofs MetricProofs2 MetricProofs4 FeatModel FeatSpec.
Open Scope R_scope.

Lemma ln2_pos : 0 < ln 2.
Proof. rewrite <- ln_1. apply ln_increasing; lra. Qed.
Lemma ln_le_sub x : 0 < x -> ln x <= x - 1.
Proof. intros H. pose proof (exp_ge (ln x)) as E. rewrite exp_ln in E by assumption. lra. Qed.
Lemma ln_le0 x : 0 < x <= 1 -> ln x <= 0.
Proof. intros [H H1]. pose proof (ln_le_sub x H). lra. Qed.
Lemma ln_lt0 x : 0 < x < 1 -> ln x < 0.
Proof. intros [H H1]. rewrite <- ln_1. now apply ln_increasing. Qed.

Definition positive (ls : list R) : Prop := forall l, In l ls -> 0 < l.
Lemma positive_sum ls : positive ls -> ls <> [] -> 0 < total ls.
Proof.
  intros H N. destruct ls as [|a ls]; [easy|]. cbn [total]. assert (0 < a) by (apply H; now left).
  assert (0 <= total ls); [|lra]. change total with rsum. apply rsum_nonneg. intros x Hx. left. apply H. now right.
Qed.
Lemma positive_le ls l : positive ls -> In l ls -> l <= total ls.
Proof.
  intros H Hl. induction ls as [|a ls IH]; [destruct Hl|]. cbn [total]. assert (P : positive ls) by (intros x Hx; apply H; now right).
  assert (0 <= total ls) by (change total with rsum; apply rsum_nonneg; intros x Hx; left; now apply P). assert (0 < a) by (apply H; now left).
  destruct Hl as [->|Hl]; [lra|]. specialize (IH P Hl). lra.
Qed.
Lemma positive_lt ls l : positive ls -> In l ls -> zlen ls <> 1%Z -> l < total ls.
Proof.
  intros H Hl N. destruct ls as [|a [|b ls]]; [destruct Hl|rewrite zlen_cons in N; cbn in N; lia|].
  assert (Pa : 0 < a) by (apply H; now left). assert (Pb : 0 < b) by (apply H; right; now left).
  assert (P : positive (b :: ls)) by (intros x Hx; apply H; now right). assert (P' : positive ls) by (intros x Hx; apply H; right; now right).
  assert (0 <= total ls) by (change total with rsum; apply rsum_nonneg; intros x Hx; left; now apply P').
  destruct Hl as [->|Hl]; [cbn [total]; lra|]. pose proof (positive_le (b :: ls) l P Hl). change (l < a + total (b :: ls)). lra.
Qed.

Lemma total_map_scal {A} c (f : A -> R) l : total (map (fun x => c * f x) l) = c * total (map f l).
Proof. induction l; cbn [map total]; [ring|]. rewrite IHl. ring. Qed.
Lemma total_map_add {A} (f g : A -> R) l : total (map (fun x => f x + g x) l) = total (map f l) + total (map g l).
Proof. induction l; cbn [map total]; [ring|]. rewrite IHl. ring. Qed.
Lemma total_map_le {A} (f g : A -> R) l : (forall x, In x l -> f x <= g x) -> total (map f l) <= total (map g l).
Proof. induction l; intros H; cbn [map total]; [lra|]. assert (f a <= g a) by (apply H; now left). assert (total (map f l) <= total (map g l)) by (apply IHl; intros; apply H; now right). lra. Qed.
Lemma total_const {A} c (l : list A) : total (map (fun _ => c) l) = IZR (zlen l) * c.
Proof. induction l; [cbn; ring|]. cbn [map total]. rewrite IHl, zlen_cons, plus_IZR. ring. Qed.

Lemma shannon_eq ls : shannon ls = total (map (fun l => - (l / total ls) * ln (l / total ls)) ls) / ln 2.
Proof.
  unfold shannon, log2, Rdiv. pose proof ln2_pos. rewrite Rmult_comm, <- total_map_scal.
  transitivity (-1 * total (map (fun l => l * / total ls * (ln (l * / total ls) * / ln 2)) ls)); [ring|]. rewrite <- total_map_scal.
  f_equal. apply map_ext. intros l. ring.
Qed.

Lemma shannon_nonneg ls : positive ls -> 0 <= shannon ls.
Proof.
  intros H. rewrite shannon_eq. pose proof ln2_pos. apply Rmult_le_pos; [|left; now apply Rinv_0_lt_compat].
  change total with rsum. apply rsum_nonneg. intros x Hx. apply in_map_iff in Hx. destruct Hx as [l [<- Hl]]. change rsum with total.
  assert (N : ls <> []) by (intros ->; destruct Hl). pose proof (positive_sum ls H N) as HT. pose proof (positive_le ls l H Hl). specialize (H l Hl).
  assert (0 < l / total ls) by (apply Rdiv_lt_0_compat; assumption).
  assert (l / total ls <= 1) by (apply (Rmult_le_reg_r (total ls)); [assumption|]; unfold Rdiv; rewrite Rmult_assoc, Rinv_l; lra).
  pose proof (ln_le0 (l / total ls) ltac:(split; assumption)). nra.
Qed.
Lemma shannon_one ls : positive ls -> zlen ls = 1%Z -> shannon ls = 0.
Proof.
  intros H E. destruct ls as [|a [|b ls]]; [discriminate| |rewrite !zlen_cons in E; pose proof (zlen_nonneg ls); lia].
  assert (0 < a) by (apply H; now left). unfold shannon, log2. cbn [map total]. replace (a / (a + 0)) with 1 by (field; lra). rewrite ln_1. unfold Rdiv. ring.
Qed.
Lemma shannon_pos ls : positive ls -> ls <> [] -> zlen ls <> 1%Z -> 0 < shannon ls.
Proof.
  intros H N N1. rewrite shannon_eq. pose proof ln2_pos. apply Rdiv_lt_0_compat; [|assumption]. pose proof (positive_sum ls H N) as HT.
  assert (HP : positive (map (fun l => - (l / total ls) * ln (l / total ls)) ls)).
  { intros x Hx. apply in_map_iff in Hx. destruct Hx as [l [<- Hl]]. pose proof (positive_lt ls l H Hl N1). specialize (H l Hl).
    assert (0 < l / total ls) by (apply Rdiv_lt_0_compat; assumption).
    assert (l / total ls < 1) by (apply (Rmult_lt_reg_r (total ls)); [assumption|]; unfold Rdiv; rewrite Rmult_assoc, Rinv_l; lra).
    pose proof (ln_lt0 (l / total ls) ltac:(split; assumption)). nra. }
  apply positive_sum; [assumption|]. destruct ls; [easy|discriminate].
Qed.
Lemma shannon_le ls : positive ls -> ls <> [] -> shannon ls <= log2 (IZR (zlen ls)).
Proof.
  intros H N. rewrite shannon_eq. unfold log2, Rdiv. pose proof ln2_pos as L2. apply Rmult_le_compat_r; [left; now apply Rinv_0_lt_compat|].
  pose proof (positive_sum ls H N) as HT. set (T := total ls) in *. set (n := IZR (zlen ls)).
  assert (Hn : 0 < n) by (apply (IZR_lt 0); destruct ls; [easy|rewrite zlen_cons; pose proof (zlen_nonneg ls); lia]).
  assert (E1 : total (map (fun l => l * / T) ls) = 1).
  { rewrite (map_ext _ (fun l => / T * l)) by (intros; ring). rewrite total_map_scal, map_id. fold T. field. lra. }
  assert (B : total (map (fun l => - (l * / T) * ln (l * / T)) ls) <= total (map (fun l => (/ n + -1 * (l * / T)) + ln n * (l * / T)) ls)).
  { apply total_map_le. intros l Hl. specialize (H l Hl). assert (HP : 0 < l * / T) by (apply Rmult_lt_0_compat; [assumption|now apply Rinv_0_lt_compat]). set (p := l * / T) in *.
    assert (HQ : 0 < / (n * p)) by (apply Rinv_0_lt_compat; nra). pose proof (ln_le_sub _ HQ) as HL. rewrite ln_Rinv in HL by nra. rewrite ln_mult in HL by assumption.
    assert (EP : p * (/ (n * p)) = / n) by (field; lra). nra. }
  rewrite !total_map_add, total_const, !total_map_scal, E1 in B. fold n in B. rewrite Rinv_r in B by lra. lra.
Qed.
Lemma shannon_scale c ls : 0 < c -> positive ls -> shannon (map (fun l => c * l) ls) = shannon ls.
Proof.
  intros Hc HP. destruct ls as [|l0 ls0]; [reflexivity|]. set (ls := l0 :: ls0) in *. pose proof (positive_sum ls HP ltac:(discriminate)). unfold shannon. rewrite map_map. assert (E : total (map (fun l => c * l) ls) = c * total ls) by (rewrite total_map_scal, map_id; reflexivity). rewrite E.
  do 2 f_equal. apply map_ext. intros l. assert (Q : c * l / (c * total ls) = l / total ls); [|now rewrite Q].
  field. lra.
Qed.
Lemma shannon_perm ls ls' : Permutation ls ls' -> shannon ls = shannon ls'.
Proof.
  intros P. unfold shannon. change total with rsum. rewrite (rsum_perm ls ls' P). f_equal. apply rsum_perm. now apply Permutation_map.
Qed.

Lemma lifetimes_positive x : proper x -> positive (lifetimes x).
Proof.
  intros H l Hl. apply in_map_iff in Hl. destruct Hl as [p [<- Hp]]. apply off_diagonal_In in Hp. destruct Hp. now apply (life_pos x).
Qed.
Lemma lifetimes_nil x : lifetimes x = [] <-> off_diagonal x = [].
Proof. unfold lifetimes. destruct (off_diagonal x); split; intros; (reflexivity || discriminate). Qed.
Lemma lifetimes_zlen x : zlen (lifetimes x) = zlen (off_diagonal x).
Proof. apply zlen_map. Qed.
Lemma sum_lifetimes x : rsum (map life x) = total (lifetimes x).
Proof. rewrite rsum_off; [reflexivity|]. intros p _. apply life_diag. Qed.

Lemma entropy2_nan x : x <> [] -> off_diagonal x = [] -> entropy2 (map lifetime x) = XNaN.
Proof.
  intros N E. unfold entropy2. change (map lifetime x) with (map life x). rewrite sum_lifetimes. apply lifetimes_nil in E. rewrite E.
  destruct (map life x) eqn:EM; [destruct x; [easy|discriminate]|]. cbn [total]. destruct (Req_EM_T 0 0); [reflexivity|lra].
Qed.
Lemma entropy2_fin x : proper x -> off_diagonal x <> [] -> entropy2 (map lifetime x) = XFin (shannon (lifetimes x)).
Proof.
  intros H N. unfold entropy2. change (map lifetime x) with (map life x). rewrite sum_lifetimes. pose proof (lifetimes_positive x H) as HP.
  assert (N' : lifetimes x <> []) by (now rewrite lifetimes_nil). pose proof (positive_sum _ HP N') as HT. set (T := total (lifetimes x)) in *.
  assert (EM : forall (A : Type) (a b : A), match map life x with [] => a | _ :: _ => b end = b) by (destruct x; [exfalso; now apply N|reflexivity]).
  rewrite EM. destruct (Req_EM_T T 0); [lra|]. f_equal. rewrite shannon_eq. fold T. f_equal. rewrite map_map.
  rewrite rsum_off.
  - unfold lifetimes. rewrite map_map. change total with rsum. f_equal. apply map_ext_in. intros p Hp. unfold entr.
    assert (0 < life p) by (apply HP; now apply in_map). assert (0 < life p / T) by (now apply Rdiv_lt_0_compat). destruct (Req_EM_T _ 0); [lra|]. ring.
  - intros p _ E. rewrite (life_diag p E). unfold entr, Rdiv. rewrite Rmult_0_l. destruct (Req_EM_T 0 0); [reflexivity|lra].
Qed.
Lemma entropy1_ok normalize fill x : proper x -> x <> [] -> is_entropy_value normalize fill x (persistence_entropy1 normalize fill x).
Proof.
  intros H N. unfold is_entropy_value, persistence_entropy1. cbv zeta. change (map lifetime x) with (map life x). rewrite sum_lifetimes. change (map life x) with (map lifetime x).
  pose proof ln2_pos as L2. split; [|split; [|split]].
  - intros E. rewrite (entropy2_nan x N E). assert (EN : (if normalize then xdiv XNaN (xlog2 (total (lifetimes x))) else XNaN) = XNaN) by (destruct normalize; reflexivity). rewrite EN. now destruct fill.
  - intros E ->. rewrite (entropy2_fin x H E). now destruct fill.
  - intros E -> NL. rewrite (entropy2_fin x H E). pose proof (positive_sum _ (lifetimes_positive x H) ltac:(now rewrite lifetimes_nil)) as HT. unfold xlog2, xdiv.
    destruct (Req_EM_T (total (lifetimes x)) 0); [lra|]. destruct (Req_EM_T _ 0) as [Z|Z].
    + exfalso. apply NL. apply ln_inv; [assumption|lra|]. rewrite ln_1. apply (Rmult_eq_reg_r (/ ln 2)); [|apply Rinv_neq_0_compat; lra]. rewrite Rmult_0_l. exact Z.
    + unfold log2. now destruct fill.
  - intros E -> EL. rewrite (entropy2_fin x H E). rewrite EL. unfold xlog2, xdiv. destruct (Req_EM_T 1 0); [lra|]. rewrite ln_1. unfold Rdiv. rewrite Rmult_0_l.
    destruct (Req_EM_T 0 0) as [_|F]; [|lra]. pose proof (lifetimes_positive x H) as HP. assert (N' : lifetimes x <> []) by (now rewrite lifetimes_nil). rewrite <- lifetimes_zlen. split; intros Z.
    + rewrite (shannon_one _ HP Z). destruct (Req_EM_T 0 0); [|lra]. now destruct fill.
    + pose proof (shannon_pos _ HP N' Z). destruct (Req_EM_T _ 0); [lra|]. destruct (Rlt_dec 0 _); [|lra]. now destruct fill.
Qed.

(** *** number of points *)
Open Scope Z_scope.
Lemma number_points_ok x : number_points x = zlen (off_diagonal x).
Proof.
  unfold number_points, off_diagonal. f_equal. apply filter_ext. intros p. f_equal. destruct (Qceqb_spec (snd p - fst p)%Qc 0%Qc) as [E|E], (Qceqb_spec (fst p) (snd p)) as [F|F]; try reflexivity; exfalso.
  - apply F. qlra.
  - apply E. rewrite F. ring.
Qed.

Lemma first_dims_ok X : trainable X -> exists dims, first_dims X = Ok dims /\ dims <> [] /\ dimensions_of X dims.
Proof. intros HT. destruct (fit_ok false 1 X ltac:(lia) HT) as [dims [b [E1 [Hd [HD _]]]]]. eauto. Qed.

Lemma py_slice_map {A B} (f : A -> B) a b k l : py_slice a b k (map f l) = map f (py_slice a b k l).
Proof.
  unfold py_slice. rewrite zlen_map. cbv zeta. generalize (arange (slice_count k (slice_start k (zlen l) a) (slice_stop k (zlen l) b))).
  generalize (slice_start k (zlen l) a). intros lo L. induction L as [|i L IH]; [reflexivity|]. cbn [flat_map]. rewrite map_app, <- IH, Znth_map.
  now destruct (Znth l (lo + i * k)).
Qed.
Lemma take_slice_map {A B} (f : A -> B) s l : take_slice s (map f l) = map f (take_slice s l).
Proof. apply py_slice_map. Qed.

Lemma number_of_points_ok X : trainable X -> exists dims, dimensions_of X dims /\
  forall n_jobs Y, 1 <= n_jobs -> transformable (map pq (hd [] X)) Y ->
  number_of_points n_jobs X Y = Ok (map (fun y => map (fun q => zlen (off_diagonal (points_of q y))) dims) Y).
Proof.
  intros HT. destruct (first_dims_ok X HT) as [dims [E1 [Hd HD]]]. exists dims. split; [assumption|]. intros n_jobs Y HJ HY.
  assert (HB : forall q, In q dims -> balanced q Y) by (intros q Hq; apply HY; now apply HD). pose proof (proj1 HY) as HX. pose proof (proj1 (proj2 HY)) as HF.
  unfold number_of_points. rewrite E1. cbn [bind].
  (* reduce to the loop of vectorise *)
  assert (EV := vectorise_ok (fun _ batch => Ok (map number_points batch)) (fun q y => number_points (to_q (rows_of q y))) Y dims n_jobs HJ HX Hd HB).
  assert (EP : forall q xs, In q dims -> xs <> [] -> incl xs Y -> Ok (map number_points (map (fun x => to_q (rows_of q x)) xs)) = Ok (map (fun y => number_points (to_q (rows_of q y))) xs)) by (intros; now rewrite map_map).
  specialize (EV EP). clear EP. unfold vectorise in EV.
  set (P := flat_map _ dims) in *.
  assert (EM : mapM (fun ds => do Xs <- subdiagrams Y [fst ds]; Ok (map number_points (take_slice (snd ds) (map to_q Xs)))) P
    = mapM (fun ds => do Xs <- subdiagrams (take_slice (snd ds) Y) [fst ds]; Ok (map number_points (map to_q Xs))) P).
  { apply mapM_ext. intros [q s] Hin. cbn [fst snd]. apply in_flat_map in Hin. destruct Hin as [q' [Hq Hin]]. apply in_map_iff in Hin. destruct Hin as [s' [E Hs]].
    assert (q' = q) by congruence. assert (s' = s) by congruence. subst q' s'.
    rewrite subdiagrams_ok; [|assumption|easy|intros q' [<-|[]]; auto].
    rewrite subdiagrams_ok; [|apply (even_slices_nonempty Y n_jobs); assumption|easy|intros q' [<-|[]]; apply (balanced_incl q Y); [auto|]; now apply (take_slice_incl Y n_jobs)].
    cbn [bind]. rewrite !take_slice_map. reflexivity. }
  etransitivity; [|etransitivity; [exact EV|]].
  - rewrite EM. reflexivity.
  - f_equal. apply map_ext_in. intros y Hy. apply map_ext. intros q. rewrite number_points_ok. now rewrite (points_of_to_q q Y).
Qed.
