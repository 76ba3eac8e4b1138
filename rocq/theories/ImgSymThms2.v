(** Theorems for C91, continued: all six image filtrations commute with
    reflections and axis permutations. *)
From Coq Require Import Reals Lra Permutation.
From Verif Require Import Np NpFacts Nd NdFacts RNp RNormFacts FeatModel ImgModel ImgModel2 ImgSpec ImgSpec2 ImgProofs ImgProofs2 ImgProofs5 ImgThms ImgThms2 ImgSymSpec ImgSymThms.
Open Scope Z_scope.

Lemma Forall2_map2 {A B C D} (R : C -> D -> Prop) (f : A -> C) (g : B -> D) l m : Forall2 (fun x y => R (f x) (g y)) l m -> Forall2 R (map f l) (map g m).
Proof. induction 1; cbn [map]; now constructor. Qed.
Lemma Forall2_mono {A B} (R S : A -> B -> Prop) l m : (forall x y, R x y -> S x y) -> Forall2 R l m -> Forall2 S l m.
Proof. intros H. induction 1; constructor; auto. Qed.
Lemma perm_total_size s s' : Permutation s s' -> total_size s' = total_size s.
Proof. intros P. symmetry. exact (sum_perm s s' P). Qed.
Lemma perm_zlen {A} (s s' : list A) : Permutation s s' -> zlen s' = zlen s.
Proof. intros P. unfold zlen. now rewrite (Permutation_length P). Qed.
Lemma moved_binary s s' sigma y y' : grid_bijection s s' sigma -> moved s s' sigma y y' -> binary y -> binary y'.
Proof.
  intros B M HB q v H. pose proof (moved_get s s' sigma y y' B M) as G. destruct M as [_ [S' _]]. destruct B as [_ [_ [_ B2]]].
  destruct (B2 q) as [p [I <-]]; [apply at_inside in H; congruence|]. rewrite G in H by assumption. exact (HB p v H).
Qed.
Lemma Forall2_binary s s' sigma Y Y' : grid_bijection s s' sigma -> Forall2 (moved s s' sigma) Y Y' -> (forall y, In y Y -> binary y) -> forall y, In y Y' -> binary y.
Proof.
  intros B F. induction F as [|y y' Y Y' M F IH]; intros HB z Hz; [destruct Hz|]. destruct Hz as [<-|Hz]; [apply (moved_binary s s' sigma y); auto; apply HB; now left|].
  apply IH; [intros; apply HB; now right|assumption].
Qed.

(** The general step: outputs determined pixel by pixel. *)
Lemma pixelwise_moved {A B} s s' sigma (P : nd B -> list Z -> A -> Prop) (P' : nd B -> list Z -> A -> Prop) f f' Y Y' :
  images s Y -> images s' Y' -> grid_bijection s s' sigma -> Forall2 (moved s s' sigma) Y Y' ->
  (forall y, In y Y -> pixelwise (P y) y (f y)) -> (forall y, In y Y' -> pixelwise (P' y) y (f' y)) ->
  (forall y y' p v v', In y Y -> In y' Y' -> moved s s' sigma y y' -> inside s p = true -> P y p v -> P' y' (sigma p) v' -> v' = v) ->
  Forall2 (moved s s' sigma) (map f Y) (map f' Y').
Proof.
  intros HY HY' BI F H H' U. apply Forall2_map2. apply Forall2_In2 in F. eapply Forall2_mono; [|exact F]. intros y y' [Iy [Iy' M]].
  destruct (H y Iy) as [S V]. destruct (H' y' Iy') as [S' V']. destruct M as [Sy [Sy' M]]. rewrite Sy in *. rewrite Sy' in *. split; [assumption|]. split; [assumption|].
  intros p I. destruct (V p I) as [v [E Hv]]. destruct (V' (sigma p)) as [v' [E' Hv']]; [now apply BI|]. exists v. split; [assumption|]. rewrite E'. f_equal.
  apply (U y y' p v v'); auto. split; auto.
Qed.
Lemma dilation_moved s s' sigma k m y y' p v v' : grid_symmetry s s' sigma -> moved s s' sigma y y' -> inside s p = true ->
  is_dilation k m y p v -> is_dilation k m y' (sigma p) v' -> v' = v.
Proof.
  intros G M I [D1 N1] [D2 N2]. destruct (closest_or_none y 1 p) as [N|[d [_ C]]]; [now right|now rewrite (proj1 M)| |].
  - rewrite N1, N2; [reflexivity| |assumption]. now apply (moved_none s s' sigma y y' 1 (proj1 G) M).
  - rewrite (D1 d C), (D2 d); [reflexivity|]. now apply (moved_closest s s' sigma y y' 1 p d G M I).
Qed.
Lemma erosion_moved s s' sigma k m y y' p v v' : grid_symmetry s s' sigma -> moved s s' sigma y y' -> inside s p = true ->
  is_erosion k m y p v -> is_erosion k m y' (sigma p) v' -> v' = v.
Proof.
  intros G M I [D1 N1] [D2 N2]. destruct (closest_or_none y 0 p) as [N|[d [_ C]]]; [now left|now rewrite (proj1 M)| |].
  - rewrite N1, N2; [reflexivity| |assumption]. now apply (moved_none s s' sigma y y' 0 (proj1 G) M).
  - rewrite (D1 d C), (D2 d); [reflexivity|]. now apply (moved_closest s s' sigma y y' 0 p d G M I).
Qed.
Lemma signed_moved s s' sigma k m y y' p v v' : binary y -> grid_symmetry s s' sigma -> moved s s' sigma y y' -> inside s p = true ->
  is_signed_distance k m y p v -> is_signed_distance k m y' (sigma p) v' -> v' = v.
Proof.
  intros HB G M I [A1 A0] [B1 B0]. pose proof (proj2 (proj2 M) p I) as [u [E E']]. destruct (HB p u E) as [->| ->].
  - destruct (A0 E) as [D1 N1]. destruct (B0 E') as [D2 N2]. destruct (closest_or_none y 1 p) as [N|[d [_ C]]]; [now right|now rewrite (proj1 M)| |].
    + rewrite N1, N2; [reflexivity| |assumption]. now apply (moved_none s s' sigma y y' 1 (proj1 G) M).
    + rewrite (D1 d C), (D2 d); [reflexivity|]. now apply (moved_closest s s' sigma y y' 1 p d G M I).
  - destruct (A1 E) as [D1 N1]. destruct (B1 E') as [D2 N2]. destruct (closest_or_none y 0 p) as [N|[d [_ C]]]; [now left|now rewrite (proj1 M)| |].
    + rewrite N1, N2; [reflexivity| |assumption]. now apply (moved_none s s' sigma y y' 0 (proj1 G) M).
    + rewrite (D1 d C), (D2 d); [reflexivity|]. now apply (moved_closest s s' sigma y y' 0 p d G M I).
Qed.

(** ** C91: dilation, erosion and signed distance commute with every symmetry of
    the grid (reflections and axis permutations are such). *)
Theorem distance_filtrations_symmetric n_iterations s s' sigma X X' Y Y' n_jobs n_jobs' :
  grid_symmetry s s' sigma -> images s X -> images s' X' -> 1 <= zlen s <= 3 -> valid_iterations n_iterations ->
  images s Y -> images s' Y' -> (forall y, In y Y -> binary y) -> 1 <= n_jobs -> 1 <= n_jobs' ->
  Forall2 (moved s s' sigma) Y Y' ->
  (exists R R', dilation_filtration n_iterations n_jobs X Y = Ok R /\ dilation_filtration n_iterations n_jobs' X' Y' = Ok R' /\
     Forall2 (moved s s' sigma) R R') /\
  (exists R R', erosion_filtration n_iterations n_jobs X Y = Ok R /\ erosion_filtration n_iterations n_jobs' X' Y' = Ok R' /\
     Forall2 (moved s s' sigma) R R') /\
  (exists R R', signed_distance_filtration n_iterations n_jobs X Y = Ok R /\ signed_distance_filtration n_iterations n_jobs' X' Y' = Ok R' /\
     Forall2 (moved s s' sigma) R R').
Proof.
  intros G HX HX' HL HV HY HY' HB HJ HJ' F. pose proof (proj1 (proj1 G)) as P. pose proof (Forall2_binary s s' sigma Y Y' (proj1 G) F HB) as HB'.
  assert (HL' : 1 <= zlen s' <= 3) by now rewrite (perm_zlen s s' P). split; [|split].
  - destruct (dilation_filtration_spec n_iterations s X HX HL HV) as [f Hf]. destruct (dilation_filtration_spec n_iterations s' X' HX' HL' HV) as [f' Hf'].
    destruct (Hf s Y n_jobs HY HB HJ) as [E Q]. destruct (Hf' s' Y' n_jobs' HY' HB' HJ') as [E' Q']. exists (map f Y), (map f' Y'). split; [assumption|]. split; [assumption|].
    rewrite (perm_total_size s s' P) in Q'. eapply pixelwise_moved; [exact HY|exact HY'|apply G|exact F|exact Q|exact Q'|]. intros y y' p v v' _ _ M I. now apply (dilation_moved s s' sigma).
  - destruct (erosion_filtration_spec n_iterations s X HX HL HV) as [f Hf]. destruct (erosion_filtration_spec n_iterations s' X' HX' HL' HV) as [f' Hf'].
    destruct (Hf s Y n_jobs HY HJ HB) as [E Q]. destruct (Hf' s' Y' n_jobs' HY' HJ' HB') as [E' Q']. exists (map f Y), (map f' Y'). split; [assumption|]. split; [assumption|].
    rewrite (perm_total_size s s' P) in Q'. eapply pixelwise_moved; [exact HY|exact HY'|apply G|exact F|exact Q|exact Q'|]. intros y y' p v v' _ _ M I. now apply (erosion_moved s s' sigma).
  - destruct (signed_distance_filtration_spec n_iterations s X HX HL HV) as [f Hf]. destruct (signed_distance_filtration_spec n_iterations s' X' HX' HL' HV) as [f' Hf'].
    destruct (Hf s Y n_jobs HY HB HJ) as [E Q]. destruct (Hf' s' Y' n_jobs' HY' HB' HJ') as [E' Q']. exists (map f Y), (map f' Y'). split; [assumption|]. split; [assumption|].
    rewrite (perm_total_size s s' P) in Q'. eapply pixelwise_moved; [exact HY|exact HY'|apply G|exact F|exact Q|exact Q'|]. intros y y' p v v' Iy _ M I. apply (signed_moved s s' sigma); auto.
Qed.

(** *** height *)
Lemma sumsq_scale c u : sumsq (map (Rmult c) u) = (c * c * sumsq u)%R.
Proof. induction u as [|a u IH]; cbn [map sumsq]; [ring|]. rewrite IH. ring. Qed.
Lemma inner_scale c u : forall p, inner p (map (Rmult c) u) = (c * inner p u)%R.
Proof. induction u as [|a u IH]; intros [|i p]; cbn [map inner]; try ring. rewrite IH. ring. Qed.
Lemma height_moved s s' sigma u u' p h : grid_bijection s s' sigma ->
  (forall p q, inside s p = true -> inside s q = true ->
     (inner (coords (sigma p)) u' - inner (coords (sigma q)) u' = inner (coords p) u - inner (coords q) u)%R) ->
  inside s p = true -> is_height s u p h -> is_height s' u' (sigma p) h.
Proof.
  intros [_ [B1 [_ B2]]] D I [q [Iq [Mq ->]]]. exists (sigma q). split; [auto|]. split.
  - intros q' I'. destruct (B2 q' I') as [r [Ir <-]]. pose proof (D r q Ir Iq). pose proof (Mq r Ir). lra.
  - symmetry. now apply D.
Qed.
Theorem height_filtration_symmetric d d' s s' sigma X X' Y Y' n_jobs n_jobs' :
  grid_bijection s s' sigma ->
  sumsq d' = sumsq d ->
  (forall p q, inside s p = true -> inside s q = true ->
     (inner (coords (sigma p)) d' - inner (coords (sigma q)) d' = inner (coords p) d - inner (coords q) d)%R) ->
  zlen d = zlen s -> zlen d' = zlen s' -> (exists a, In a d /\ a <> 0%R) -> (exists a, In a d' /\ a <> 0%R) ->
  images s X -> images s' X' -> 2 <= zlen s <= 3 -> (forall n, In n s -> 0 < n) ->
  images s Y -> images s' Y' -> 1 <= n_jobs -> 1 <= n_jobs' ->
  Forall2 (moved s s' sigma) Y Y' ->
  exists R R', height_filtration (Some d) n_jobs X Y = Ok R /\ height_filtration (Some d') n_jobs' X' Y' = Ok R' /\
    Forall2 (moved s s' sigma) R R'.
Proof.
  intros B SS D L L' N N' HX HX' HL HP HY HY' HJ HJ' F. pose proof (proj1 B) as P.
  assert (HL' : 2 <= zlen s' <= 3) by now rewrite (perm_zlen s s' P).
  assert (HP' : forall n, In n s' -> 0 < n). { intros n Hn. apply HP. apply (Permutation_in n (Permutation_sym P)). exact Hn. }
  destruct (height_filtration_spec (Some d) s X HX HL HP L N) as [u [M [f [HU [[p0 [h0 [I0 [H0 E0]]]] [HM Hf]]]]]].
  destruct (height_filtration_spec (Some d') s' X' HX' HL' HP' L' N') as [u' [M' [f' [HU' [[p1 [h1 [I1 [H1 E1]]]] [HM' Hf']]]]]]. cbv beta iota zeta in *.
  destruct (Hf Y n_jobs HY HJ) as [E Q]. destruct (Hf' Y' n_jobs' HY' HJ') as [E' Q'].
  assert (D' : forall p q, inside s p = true -> inside s q = true -> (inner (coords (sigma p)) u' - inner (coords (sigma q)) u' = inner (coords p) u - inner (coords q) u)%R).
  { destruct HU as [U1 [c [C U2]]]. destruct HU' as [U1' [c' [C' U2']]]. rewrite U2, U2', !sumsq_scale, U1, U1' in SS.
    assert (K : c' = c) by nra. subst c'. intros p q Ip Iq. specialize (D p q Ip Iq). rewrite U2, U2', !inner_scale in D. apply (Rmult_eq_reg_l c); lra. }
  assert (HH : forall p h, inside s p = true -> is_height s u p h -> is_height s' u' (sigma p) h) by (intros; eapply height_moved; eauto).
  assert (EM : M' = M).
  { destruct (proj2 (proj2 (proj2 B)) p1 I1) as [q1 [J1 <-]]. apply Rle_antisym.
    - assert (K : (h1 <= M - 1)%R); [|lra]. destruct H0 as [q [Iq [Mq _]]].
      assert (Hq : is_height s u q1 (inner (coords q1) u - inner (coords q) u)) by (exists q; auto).
      pose proof (HM q1 _ J1 Hq). pose proof (HH q1 _ J1 Hq) as Hq'. pose proof (proj1 (proj2 (height_properties s' u' (sigma q1) h1 I1 H1)) _ Hq'). lra.
    - pose proof (HM' (sigma p0) h0 (proj1 (proj2 B) p0 I0) (HH p0 h0 I0 H0)). lra. }
  exists (map f Y), (map f' Y'). split; [assumption|]. split; [assumption|]. apply Forall2_map2. apply Forall2_In2 in F. eapply Forall2_mono; [|exact F]. intros y y' [Iy [Iy' [S [S' MV]]]].
  destruct (Q y Iy) as [Sf V]. destruct (Q' y' Iy') as [Sf' V']. split; [assumption|]. split; [assumption|]. intros p I. destruct (MV p I) as [v [G G']].
  destruct (V p v G) as [V1 V0]. destruct (V' (sigma p) v G') as [V1' V0']. destruct (Z.eq_dec v 0) as [Z0|Z0].
  - exists (Some M). split; [auto|]. rewrite <- EM. auto.
  - destruct (V1 Z0) as [h [Eh Hh]]. destruct (V1' Z0) as [h' [Eh' Hh']]. exists (Some h). split; [assumption|]. rewrite Eh'. do 2 f_equal.
    pose proof (HH p h I Hh) as Hh2. symmetry. apply (proj1 (proj2 (height_properties s' u' (sigma p) h' (proj1 (proj2 B) p I) Hh')) h Hh2).
Qed.
(** Reflecting the images and the direction along an axis reflects the result;
    likewise for axis permutations. *)
Lemma inner_col_row p e : length p = length e -> inner (coords p) (col_row e) = inner p e.
Proof. destruct p as [|r [|c p]], e as [|a [|b e]]; cbn [length]; intros L; try discriminate; try reflexivity. cbn [coords col_row inner]. ring. Qed.
Lemma inner_flip k : forall s p q e, length p = length s -> length q = length s ->
  (inner (flip k s p) (opposite k e) - inner (flip k s q) (opposite k e) = inner p e - inner q e)%R.
Proof.
  induction k as [|k IH]; intros [|n s] [|i p] [|j q] [|a e] L L'; cbn [length] in L, L'; try discriminate; try (cbn [flip opposite inner]; lra); cbn [flip opposite inner].
  - rewrite !minus_IZR. lra.
  - specialize (IH s p q e ltac:(lia) ltac:(lia)). lra.
Qed.
Lemma sumsq_opposite k : forall e, sumsq (opposite k e) = sumsq e.
Proof. induction k as [|k IH]; intros [|a e]; cbn [opposite sumsq]; try rewrite IH; ring. Qed.
Lemma sumsq_col_row e : sumsq (col_row e) = sumsq e.
Proof. destruct e as [|a [|b e]]; cbn [col_row sumsq]; ring. Qed.
Lemma length_opposite k : forall e, length (opposite k e) = length e.
Proof. induction k as [|k IH]; intros [|a e]; cbn [opposite length]; auto. Qed.
Lemma length_col_row {A} (e : list A) : length (col_row e) = length e.
Proof. now destruct e as [|a [|b e]]. Qed.
Lemma In_col_row {A} (e : list A) x : In x (col_row e) <-> In x e.
Proof. destruct e as [|a [|b e]]; cbn [col_row In]; tauto. Qed.
Lemma nonzero_sumsq e : (exists a, In a e /\ a <> 0%R) <-> (sumsq e <> 0)%R.
Proof.
  assert (NN : forall e, (0 <= sumsq e)%R) by (intros l; induction l as [|a l IH]; cbn [sumsq]; nra).
  induction e as [|b e IH]; cbn [sumsq In]; [split; [intros [a [[] _]]|lra]|]. specialize (NN e). split.
  - intros [a [[->|H] N]]; [nra|]. assert (K : (sumsq e <> 0)%R) by (apply IH; now exists a). nra.
  - intros N. destruct (Req_dec b 0) as [->|K]; [|exists b; auto]. destruct (proj2 IH) as [a [H1 H2]]; [lra|]. exists a. auto.
Qed.
Theorem height_reflected k e s X Y Y' n_jobs n_jobs' :
  length e = length s -> (exists a, In a e /\ a <> 0%R) ->
  images s X -> 2 <= zlen s <= 3 -> (forall n, In n s -> 0 < n) ->
  images s Y -> images s Y' -> 1 <= n_jobs -> 1 <= n_jobs' ->
  Forall2 (moved s s (flip k s)) Y Y' ->
  exists R R', height_filtration (Some (col_row e)) n_jobs X Y = Ok R /\
    height_filtration (Some (col_row (opposite k e))) n_jobs' X Y' = Ok R' /\
    Forall2 (moved s s (flip k s)) R R'.
Proof.
  intros L N HX HL HP HY HY' HJ HJ' F. apply (height_filtration_symmetric _ _ s s (flip k s) X X); try assumption.
  - apply reflection_is_symmetry.
  - now rewrite !sumsq_col_row, sumsq_opposite.
  - intros p q I J. pose proof (inside_length _ _ I). pose proof (inside_length _ _ J). pose proof (inside_length _ _ (flip_inside k s p I)). pose proof (inside_length _ _ (flip_inside k s q J)).
    rewrite !inner_col_row by (rewrite ?length_opposite; congruence). now apply inner_flip.
  - unfold zlen. now rewrite length_col_row, L.
  - unfold zlen. now rewrite length_col_row, length_opposite, L.
  - destruct N as [a [H1 H2]]. exists a. split; [now apply In_col_row|assumption].
  - apply nonzero_sumsq. rewrite sumsq_col_row, sumsq_opposite. now apply nonzero_sumsq.
Qed.
Lemma rsum_perm' l l' : Permutation l l' -> fold_right Rplus 0%R l = fold_right Rplus 0%R l'.
Proof. induction 1; cbn [fold_right]; lra. Qed.
Lemma inner_sum e : forall p, length p = length e -> inner p e = fold_right Rplus 0%R (map (fun k => IZR (nth k p 0%Z) * nth k e 0)%R (seq 0 (length e))).
Proof.
  induction e as [|a e IH]; intros [|i p] L; try discriminate; [reflexivity|]. cbn [inner length seq map fold_right nth]. f_equal. cbn [length] in L. rewrite IH by lia.
  rewrite <- seq_shift, map_map. reflexivity.
Qed.
Lemma sumsq_sum e : sumsq e = fold_right Rplus 0%R (map (fun k => nth k e 0 * nth k e 0)%R (seq 0 (length e))).
Proof. induction e as [|a e IH]; [reflexivity|]. cbn [sumsq length seq map fold_right nth]. f_equal. rewrite IH, <- seq_shift, map_map. reflexivity. Qed.
Lemma nth_reorder_R a e i : (i < length a)%nat -> nth i (reorder_R a e) 0%R = nth (nth i a O) e 0%R.
Proof. intros H. unfold reorder_R. rewrite (nth_indep _ 0%R (nth O e 0%R)) by (now rewrite map_length). exact (map_nth (fun k => nth k e 0%R) a O i). Qed.
Lemma inner_reorder a p e : Permutation a (seq 0 (length e)) -> length p = length e -> inner (reorder a p) (reorder_R a e) = inner p e.
Proof.
  intros P L. pose proof (Permutation_length P) as LA. rewrite seq_length in LA. rewrite !inner_sum; [|assumption|unfold reorder, reorder_R; now rewrite !map_length].
  unfold reorder_R at 2. rewrite map_length. transitivity (fold_right Rplus 0%R (map (fun k => IZR (nth k p 0%Z) * nth k e 0)%R a)).
  - f_equal. symmetry. rewrite (list_nths O a) at 1. rewrite map_map. apply map_ext_in. intros i Hi. apply in_seq in Hi. rewrite nth_reorder, nth_reorder_R by lia. reflexivity.
  - apply rsum_perm'. now apply Permutation_map.
Qed.
Lemma sumsq_reorder a e : Permutation a (seq 0 (length e)) -> sumsq (reorder_R a e) = sumsq e.
Proof.
  intros P. pose proof (Permutation_length P) as LA. rewrite seq_length in LA. rewrite !sumsq_sum. unfold reorder_R at 3. rewrite map_length.
  transitivity (fold_right Rplus 0%R (map (fun k => nth k e 0 * nth k e 0)%R a)).
  - f_equal. symmetry. rewrite (list_nths O a) at 1. rewrite map_map. apply map_ext_in. intros i Hi. apply in_seq in Hi. rewrite nth_reorder_R by lia. reflexivity.
  - apply rsum_perm'. now apply Permutation_map.
Qed.
Theorem height_axes_permuted a e s X X' Y Y' n_jobs n_jobs' :
  Permutation a (seq 0 (length s)) -> length e = length s -> (exists a, In a e /\ a <> 0%R) ->
  images s X -> images (reorder a s) X' -> 2 <= zlen s <= 3 -> (forall n, In n s -> 0 < n) ->
  images s Y -> images (reorder a s) Y' -> 1 <= n_jobs -> 1 <= n_jobs' ->
  Forall2 (moved s (reorder a s) (reorder a)) Y Y' ->
  exists R R', height_filtration (Some (col_row e)) n_jobs X Y = Ok R /\
    height_filtration (Some (col_row (reorder_R a e))) n_jobs' X' Y' = Ok R' /\
    Forall2 (moved s (reorder a s) (reorder a)) R R'.
Proof.
  intros P L N HX HX' HL HP HY HY' HJ HJ' F. pose proof (Permutation_length P) as LA. rewrite seq_length in LA.
  assert (P' : Permutation a (seq 0 (length e))) by now rewrite L.
  apply (height_filtration_symmetric _ _ s (reorder a s) (reorder a) X X'); try assumption.
  - now apply axis_permutation_is_symmetry.
  - now rewrite !sumsq_col_row, sumsq_reorder.
  - intros p q I J. pose proof (inside_length _ _ I). pose proof (inside_length _ _ J).
    rewrite !inner_col_row by (unfold reorder, reorder_R; rewrite ?map_length; congruence). rewrite !inner_reorder by (assumption || congruence). reflexivity.
  - unfold zlen. now rewrite length_col_row, L.
  - unfold zlen, reorder, reorder_R. now rewrite length_col_row, !map_length.
  - destruct N as [b [H1 H2]]. exists b. split; [now apply In_col_row|assumption].
  - apply nonzero_sumsq. rewrite sumsq_col_row, sumsq_reorder by assumption. now apply nonzero_sumsq.
Qed.
