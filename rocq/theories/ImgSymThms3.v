(** Theorems for C91, continued: radial and density filtrations, activating more
    pixels, and neighbouring pixels. *)
From Coq Require Import Reals Lra Permutation.
From Verif Require Import Np NpFacts Nd NdFacts RNp RNormFacts FeatModel ImgModel ImgModel2 ImgSpec ImgSpec2 ImgProofs ImgProofs2 ImgProofs5 ImgThms ImgThms2 ImgSymSpec ImgSymThms ImgSymThms2.
Open Scope Z_scope.

(** ** C91: RadialFiltration commutes with every one to one map of the pixels that
    keeps the distance to the center. *)
Theorem radial_filtration_symmetric (metric : list R -> list R -> R) c c' radius s s' sigma X X' Y Y' n_jobs n_jobs' :
  grid_bijection s s' sigma ->
  (forall a b, (0 <= metric a b)%R) -> (match radius with Some r => (0 < r)%R | None => True end) ->
  (forall p, inside s p = true -> metric (map IZR c') (map IZR (coords (sigma p))) = metric (map IZR c) (map IZR (coords p))) ->
  zlen c = zlen s -> zlen c' = zlen s' ->
  images s X -> images s' X' -> 2 <= zlen s <= 3 -> (forall n, In n s -> 0 < n) ->
  images s Y -> images s' Y' -> (forall y, In y Y -> binary y) -> 1 <= n_jobs -> 1 <= n_jobs' ->
  Forall2 (moved s s' sigma) Y Y' ->
  exists R R', radial_filtration metric (Some c) radius n_jobs X Y = Ok R /\
    radial_filtration metric (Some c') radius n_jobs' X' Y' = Ok R' /\
    Forall2 (moved s s' sigma) R R'.
Proof.
  intros B HM HR D L L' HX HX' HL HP HY HY' HB HJ HJ' F. pose proof (proj1 B) as P. pose proof (Forall2_binary s s' sigma Y Y' B F HB) as HB'.
  assert (HL' : 2 <= zlen s' <= 3) by now rewrite (perm_zlen s s' P).
  assert (HP' : forall n, In n s' -> 0 < n). { intros n Hn. apply HP. apply (Permutation_in n (Permutation_sym P)). exact Hn. }
  destruct (radial_filtration_spec metric (Some c) radius s X HX HL HP HM HR L) as [M [f [HM1 [HM2 Hf]]]].
  destruct (radial_filtration_spec metric (Some c') radius s' X' HX' HL' HP' HM HR L') as [M' [f' [HM1' [HM2' Hf']]]]. cbv beta iota zeta in *.
  destruct (Hf Y n_jobs HY HB HJ) as [E Q]. destruct (Hf' Y' n_jobs' HY' HB' HJ') as [E' Q']. destruct B as [_ [B1 [_ B2]]].
  assert (EM : M' = M).
  { destruct HM2 as [[p [I [W EM]]]|[N EM]]; destruct HM2' as [[p' [I' [W' EM']]]|[N' EM']].
    - destruct (B2 p' I') as [q [J <-]]. rewrite D in W', EM' by assumption. pose proof (HM1 q J W'). pose proof (HM1' (sigma p) (B1 p I)) as K. rewrite D in K by assumption. specialize (K W). lra.
    - exfalso. apply (N' (sigma p) (B1 p I)). now rewrite D.
    - exfalso. destruct (B2 p' I') as [q [J <-]]. rewrite D in W' by assumption. exact (N q J W').
    - congruence. }
  exists (map f Y), (map f' Y'). split; [assumption|]. split; [assumption|]. apply Forall2_map2. apply Forall2_In2 in F. eapply Forall2_mono; [|exact F]. intros y y' [Iy [Iy' [S [S' MV]]]].
  destruct (Q y Iy) as [Sf V]. destruct (Q' y' Iy') as [Sf' V']. split; [assumption|]. split; [assumption|]. intros p I. destruct (MV p I) as [v [G G']].
  destruct (V p v G) as [V1 V0]. destruct (V' (sigma p) v G') as [V1' V0']. rewrite D in V1', V0' by assumption.
  assert (WD : within (metric (map IZR c) (map IZR (coords p))) radius \/ ~ within (metric (map IZR c) (map IZR (coords p))) radius).
  { destruct radius as [r|]; [|now left]. cbn [within]. destruct (Rle_dec (metric (map IZR c) (map IZR (coords p))) r); auto. }
  destruct WD as [W|W].
  - destruct (HB y Iy p v G) as [->| ->].
    + exists (XFin M). split; [auto|]. rewrite <- EM. auto.
    + exists (XFin (metric (map IZR c) (map IZR (coords p)))). auto.
  - exists (XFin M). split; [auto|]. rewrite <- EM. auto.
Qed.

(** ** C91: DensityFiltration commutes with every symmetry that keeps the metric. *)
Definition value_at (x : nd Z) (q : list Z) : Z := match nget x q with Some v => v | None => 0 end.
Lemma density_sum metric radius x p v : is_density metric radius x p v ->
  exists near, NoDup near /\ (forall q, In q near <-> inside (nshape x) q = true /\ (metric (point3 q) (point3 p) <= radius)%R) /\
    v = fold_right Z.add 0 (map (value_at x) near).
Proof.
  intros [near [values [ND [HI [F ->]]]]]. exists near. split; [assumption|]. split; [assumption|]. clear ND HI. induction F as [|q u near values H F IH]; [reflexivity|].
  cbn [map fold_right]. rewrite IH. unfold value_at at 2. now rewrite H.
Qed.
Theorem density_filtration_symmetric metric radius s s' sigma X X' Y Y' n_jobs n_jobs' :
  grid_bijection s s' sigma ->
  (forall p q, inside s p = true -> inside s q = true -> metric (point3 (sigma p)) (point3 (sigma q)) = metric (point3 p) (point3 q)) ->
  proper_metric metric radius -> (0 < radius)%R ->
  images s X -> images s' X' -> 2 <= zlen s <= 3 ->
  images s Y -> images s' Y' -> 1 <= n_jobs -> 1 <= n_jobs' ->
  Forall2 (moved s s' sigma) Y Y' ->
  exists R R', density_filtration metric (Some radius) n_jobs X Y = Ok R /\
    density_filtration metric (Some radius) n_jobs' X' Y' = Ok R' /\
    Forall2 (moved s s' sigma) R R'.
Proof.
  intros B D PM HR HX HX' HL HY HY' HJ HJ' F. pose proof (proj1 B) as P.
  assert (HL' : 2 <= zlen s' <= 3) by now rewrite (perm_zlen s s' P).
  destruct (density_filtration_spec metric radius s X HX HL HR PM) as [f Hf]. destruct (density_filtration_spec metric radius s' X' HX' HL' HR PM) as [f' Hf'].
  destruct (Hf s Y n_jobs HY eq_refl HJ) as [E Q]. destruct (Hf' s' Y' n_jobs' HY' eq_refl HJ') as [E' Q']. exists (map f Y), (map f' Y'). split; [assumption|]. split; [assumption|].
  eapply pixelwise_moved; [exact HY|exact HY'|exact B|exact F|exact Q|exact Q'|]. intros y y' p v v' Iy Iy' M I H H'.
  pose proof (moved_get s s' sigma y y' B M) as G. destruct M as [S [S' _]]. destruct B as [_ [B1 [BI B2]]].
  destruct (density_sum _ _ _ _ _ H) as [near [ND [HI ->]]]. destruct (density_sum _ _ _ _ _ H') as [near' [ND' [HI' ->]]]. rewrite S in HI. rewrite S' in HI'.
  transitivity (fold_right Z.add 0 (map (value_at y') (map sigma near))).
  - apply sum_perm, Permutation_map, NoDup_Permutation; [assumption| |].
    + clear HI' H H'. assert (K : forall q, In q near -> inside s q = true) by (intros q Hq; now apply HI). clear HI. induction ND as [|q near N ND IH]; [constructor|]. cbn [map]. constructor.
      * intros C. apply in_map_iff in C. destruct C as [r [C Hr]]. apply BI in C; [subst; contradiction| |]; apply K; [now right|now left].
      * apply IH. intros r Hr. apply K. now right.
    + intros q'. rewrite HI', in_map_iff. split.
      * intros [J W]. destruct (B2 q' J) as [q [Jq <-]]. exists q. split; [reflexivity|]. apply HI. rewrite D in W by assumption. auto.
      * intros [q [<- Hq]]. apply HI in Hq. destruct Hq as [Jq W]. split; [auto|]. now rewrite D.
  - f_equal. rewrite map_map. apply map_ext_in. intros q Hq. apply HI in Hq. unfold value_at. now rewrite G.
Qed.

(** *** Minkowski metrics are kept by reflections and axis permutations *)
Definition diffs (u v : list Z) : list R := map Rabs (vsub (map IZR u) (map IZR v)).
Lemma norm_abs_perm p v v' : Permutation (map Rabs v) (map Rabs v') -> norm p v = norm p v'.
Proof.
  assert (A : forall v, norm p v = norm p (map Rabs v)).
  { intros w. destruct p as [p|]; cbn [norm]; rewrite map_map; [do 2 f_equal|f_equal]; apply map_ext; intros; now rewrite Rabs_Rabsolu. }
  intros H. rewrite (A v), (A v'). now apply norm_perm.
Qed.
Lemma diffs_cons a u b v : diffs (a :: u) (b :: v) = Rabs (IZR a - IZR b) :: diffs u v.
Proof. reflexivity. Qed.
Lemma diffs_nths u : forall v, length u = length v -> diffs u v = map (fun k => Rabs (IZR (nth k u 0%Z) - IZR (nth k v 0%Z))) (seq 0 (length u)).
Proof.
  induction u as [|a u IH]; intros [|b v] L; try discriminate; [reflexivity|]. rewrite diffs_cons. cbn [length seq map nth]. f_equal. cbn [length] in L. rewrite IH by lia.
  rewrite <- seq_shift, map_map. reflexivity.
Qed.
Lemma diffs_flip k : forall s u v, length u = length s -> length v = length s -> diffs (flip k s u) (flip k s v) = diffs u v.
Proof.
  induction k as [|k IH]; intros [|n s] [|a u] [|b v] L L'; try discriminate; try reflexivity; cbn [flip]; rewrite !diffs_cons; f_equal.
  - rewrite !minus_IZR. rewrite <- Rabs_Ropp. f_equal. ring.
  - cbn [length] in *. apply IH; lia.
Qed.
Lemma diffs_reorder a u v : Permutation a (seq 0 (length u)) -> length u = length v -> Permutation (diffs (reorder a u) (reorder a v)) (diffs u v).
Proof.
  intros P L. pose proof (Permutation_length P) as LA. rewrite seq_length in LA. rewrite (diffs_nths (reorder a u)), (diffs_nths u) by (unfold reorder; rewrite ?map_length; congruence).
  unfold reorder at 3. rewrite map_length. eapply Permutation_trans; [|apply Permutation_map; exact P].
  rewrite (list_nths O a) at 2. rewrite map_map. erewrite map_ext_in; [apply Permutation_refl|]. intros i Hi. apply in_seq in Hi. cbv beta. rewrite !nth_reorder by lia. reflexivity.
Qed.
Lemma diffs_coords u v : length u = length v -> Permutation (diffs (coords u) (coords v)) (diffs u v).
Proof. destruct u as [|a [|b u]], v as [|c [|d v]]; intros L; try discriminate; cbn [coords]; try apply Permutation_refl. rewrite !diffs_cons. apply perm_swap. Qed.
Lemma mink_coords p u v u' v' : length u = length v -> length u' = length v' -> Permutation (diffs u v) (diffs u' v') ->
  mink p (map IZR (coords u)) (map IZR (coords v)) = mink p (map IZR (coords u')) (map IZR (coords v')).
Proof.
  intros L L' H. unfold mink. apply norm_abs_perm. fold (diffs (coords u) (coords v)). fold (diffs (coords u') (coords v')).
  eapply Permutation_trans; [now apply diffs_coords|]. eapply Permutation_trans; [exact H|]. now apply Permutation_sym, diffs_coords.
Qed.
Lemma point3_diffs p q : (length p = 2 \/ length p = 3)%nat -> length q = length p ->
  Permutation (map Rabs (vsub (point3 p) (point3 q))) (diffs p q ++ repeat 0%R (3 - length p)).
Proof.
  intros H L. destruct p as [|a [|b [|c [|? p]]]]; cbn [length] in H; try lia; destruct q as [|a' [|b' [|c' [|? q]]]]; try discriminate.
  - unfold point3, diffs, vsub. cbn [map combine fst snd length Nat.sub repeat app]. replace (0 - 0)%R with 0%R by ring. rewrite Rabs_R0. apply perm_swap.
  - unfold point3, diffs, vsub. cbn [map combine fst snd length Nat.sub repeat app]. apply perm_swap.
Qed.
Lemma mink_point3 r p q p' q' : (length p = 2 \/ length p = 3)%nat -> length q = length p -> length p' = length p -> length q' = length p -> Permutation (diffs p q) (diffs p' q') ->
  mink r (point3 p) (point3 q) = mink r (point3 p') (point3 q').
Proof.
  intros H L L1 L2 HP. unfold mink. apply norm_abs_perm. eapply Permutation_trans; [now apply point3_diffs|]. eapply Permutation_trans; [apply Permutation_app_tail; exact HP|].
  apply Permutation_sym. rewrite <- L1. apply point3_diffs; congruence.
Qed.
(** Reflections and axis permutations keep the Minkowski distance to the
    accordingly moved center, and the Minkowski distance of two pixels. *)
Theorem minkowski_reflection p k s c :
  2 <= zlen s <= 3 -> length c = length s ->
  (forall q, inside s q = true ->
     mink p (map IZR (col_row (flip k s c))) (map IZR (coords (flip k s q))) = mink p (map IZR (col_row c)) (map IZR (coords q))) /\
  (forall q r, inside s q = true -> inside s r = true ->
     mink p (point3 (flip k s q)) (point3 (flip k s r)) = mink p (point3 q) (point3 r)).
Proof.
  intros HL Lc. assert (LS : (length s = 2 \/ length s = 3)%nat) by (unfold zlen in HL; lia).
  assert (LF : forall u, length u = length s -> length (flip k s u) = length s).
  { clear. revert s. induction k as [|k IH]; intros [|n s] [|i u] L; try discriminate; try reflexivity; cbn [flip length] in *; [assumption|]. f_equal. apply IH. lia. }
  split.
  - intros q I. apply inside_length in I. apply (mink_coords p (flip k s c) (flip k s q) c q); [rewrite !LF; congruence|congruence|]. rewrite diffs_flip by congruence. apply Permutation_refl.
  - intros q r I J. apply inside_length in I. apply inside_length in J. apply mink_point3; rewrite ?LF; try congruence. rewrite diffs_flip by congruence. apply Permutation_refl.
Qed.
Theorem minkowski_axis_permutation p a s c :
  2 <= zlen s <= 3 -> length c = length s -> Permutation a (seq 0 (length s)) ->
  (forall q, inside s q = true ->
     mink p (map IZR (col_row (reorder a c))) (map IZR (coords (reorder a q))) = mink p (map IZR (col_row c)) (map IZR (coords q))) /\
  (forall q r, inside s q = true -> inside s r = true ->
     mink p (point3 (reorder a q)) (point3 (reorder a r)) = mink p (point3 q) (point3 r)).
Proof.
  intros HL Lc P. assert (LS : (length s = 2 \/ length s = 3)%nat) by (unfold zlen in HL; lia). pose proof (Permutation_length P) as LA. rewrite seq_length in LA.
  assert (LF : forall u, length (reorder a u) = length s) by (intros; unfold reorder; now rewrite map_length).
  split.
  - intros q I. apply inside_length in I. apply (mink_coords p (reorder a c) (reorder a q) c q); [now rewrite !LF|congruence|]. apply diffs_reorder; congruence.
  - intros q r I J. apply inside_length in I. apply inside_length in J. apply mink_point3; rewrite ?LF; try congruence. apply diffs_reorder; congruence.
Qed.
