(** C78: persistence landscapes are stable.  Moving the points of a diagram
    along a matching of cost r changes no value of a landscape by more than r;
    so landscape distances and amplitudes are bounded by bottleneck and
    Wasserstein ones. *)
From Coq Require Import Reals Lra Permutation Sorted Classical_Prop.
From Verif Require Import Np NpFacts Fl FlFacts DiagTypes DiagModel DiagSpec DiagProofs DiagProofs2
  VecModel VecSpec SliceFacts VecProofs VecProofs2 VecProofs3 VecProofs4 VecThms RNp RNormFacts
  MetricModel MetricSpec MetricProofs MetricProofs2 MetricProofs3 MetricProofs4 MetricProofs5 MetricThms StabSpec.
Open Scope Z_scope.

(** *** costs of edges *)
Definition ecost (e : edge) : R :=
  match e with
  | Pair p q => cheb (real_pt p) (real_pt q)
  | LeftOnly p | RightOnly p => (Rabs (life p) / 2)%R
  end.
Lemma to_diagonal_abs p : to_diagonal p (Rabs (life p) / 2).
Proof.
  split.
  - exists ((qr (fst p) + qr (snd p)) / 2)%R. unfold cheb, real_pt, life. cbn [fst snd]. rewrite qr_sub.
    replace (qr (fst p) - (qr (fst p) + qr (snd p)) / 2)%R with (- ((qr (snd p) - qr (fst p)) / 2))%R by lra.
    replace (qr (snd p) - (qr (fst p) + qr (snd p)) / 2)%R with ((qr (snd p) - qr (fst p)) / 2)%R by lra.
    rewrite Rabs_Ropp, Rmax_left by lra. unfold Rdiv at 2. rewrite Rabs_mult. rewrite (Rabs_right (/ 2)) by lra. reflexivity.
  - intros t. unfold cheb, real_pt, life. cbn [fst snd]. rewrite qr_sub. set (b := qr (fst p)). set (d := qr (snd p)).
    pose proof (Rmax_l (Rabs (b - t)) (Rabs (d - t))) as M1. pose proof (Rmax_r (Rabs (b - t)) (Rabs (d - t))) as M2.
    pose proof (Rabs_triang (d - t) (- (b - t))) as A. rewrite Rabs_Ropp in A. replace (d - t + - (b - t))%R with (d - b)%R in A by lra. lra.
Qed.
Lemma edge_cost_iff e r : edge_cost e r <-> r = ecost e.
Proof.
  destruct e as [p q|p|p]; cbn [edge_cost ecost]; [tauto| |]; (split; [|intros ->; apply to_diagonal_abs]);
    intros H; eapply to_diagonal_unique; [exact H|apply to_diagonal_abs|exact H|apply to_diagonal_abs].
Qed.
Lemma edge_costs_iff M cs : Forall2 edge_cost M cs <-> cs = map ecost M.
Proof.
  split.
  - induction 1 as [|e c M cs H _ IH]; [reflexivity|]. cbn [map]. apply edge_cost_iff in H. congruence.
  - intros ->. apply Forall2_map_right, Forall2_same. intros e _. now apply edge_cost_iff.
Qed.
Lemma matching_cost_iff p M r : pos_p p -> matching_cost p M r <-> r = norm p (map ecost M).
Proof.
  intros Hp. split.
  - intros [cs [F N]]. apply edge_costs_iff in F. subst cs. now apply is_norm_unique.
  - intros ->. exists (map ecost M). split; [now apply edge_costs_iff|now apply norm_is_norm].
Qed.
Lemma cheb_nonneg a b : (0 <= cheb a b)%R.
Proof. unfold cheb. pose proof (Rmax_l (Rabs (fst a - fst b)) (Rabs (snd a - snd b))). pose proof (Rabs_pos (fst a - fst b)). lra. Qed.
Lemma ecost_nonneg e : (0 <= ecost e)%R.
Proof. destruct e as [p q|p|p]; cbn [ecost]; [apply cheb_nonneg| |]; pose proof (Rabs_pos (life p)); lra. Qed.
Lemma norm_ge p v x : pos_p p -> In x v -> (Rabs x <= norm p v)%R.
Proof.
  intros Hp Hx. destruct p as [p|]; cbn [norm].
  - cbn in Hp. rewrite <- (rpow_inv (Rabs x) p) by (try apply Rabs_pos; lra).
    assert (0 < 1 / p)%R by (apply Rdiv_lt_0_compat; lra).
    apply rpow_le; [|assumption]. split; [apply rpow_nonneg, Rabs_pos|]. clear - Hx.
    induction v as [|a v IH]; [destruct Hx|]. cbn [map]. rewrite rsum_cons.
    assert (0 <= rsum (map (fun x => rpow (Rabs x) p) v))%R by (apply rsum_nonneg; apply abs_pow_nonneg).
    assert (0 <= rpow (Rabs a) p)%R by (apply rpow_nonneg, Rabs_pos).
    destruct Hx as [->|Hx]; [lra|]. apply IH in Hx. lra.
  - apply rmax_ge. now apply in_map.
Qed.
Lemma matching_cost_edges p M r : pos_p p -> matching_cost p M r -> forall e, In e M -> (ecost e <= r)%R.
Proof.
  intros Hp H e He. apply (matching_cost_iff p M r Hp) in H. subst r. rewrite <- (Rabs_right (ecost e)) by (apply Rle_ge, ecost_nonneg).
  apply norm_ge; [assumption|]. now apply in_map.
Qed.

(** *** an optimal matching exists *)
Fixpoint words {A} (E : list A) (n : nat) : list (list A) :=
  match n with O => [[]] | S n => [] :: flat_map (fun w => map (fun e => e :: w) E) (words E n) end.
Lemma words_In {A} (E : list A) n w : (length w <= n)%nat -> incl w E -> In w (words E n).
Proof.
  revert w. induction n as [|n IH]; intros w Hl Hi; destruct w as [|e w]; cbn [length] in Hl; try lia; [now left|now left|].
  cbn [words]. right. apply in_flat_map. exists w. split; [apply IH; [lia|intros a Ha; apply Hi; now right]|].
  apply in_map_iff. exists e. split; [reflexivity|]. apply Hi. now left.
Qed.
Lemma least_exists {A} (l : list A) (P : A -> Prop) (f : A -> R) : (exists a, In a l /\ P a) ->
  exists a, In a l /\ P a /\ forall b, In b l -> P b -> (f a <= f b)%R.
Proof.
  induction l as [|a l IH]; intros [b [Hb Pb]]; [destruct Hb|].
  destruct (classic (exists a, In a l /\ P a)) as [Q|Q].
  - destruct (IH Q) as [c [Hc [Pc Lc]]]. destruct (classic (P a /\ (f a < f c)%R)) as [[Pa La]|N].
    + exists a. split; [now left|]. split; [assumption|]. intros d [<-|Hd] Pd; [lra|]. pose proof (Lc d Hd Pd). lra.
    + exists c. split; [now right|]. split; [assumption|]. intros d [<-|Hd] Pd; [|now apply Lc].
      destruct (Rle_or_lt (f c) (f a)); [assumption|]. exfalso. apply N. now split.
  - destruct Hb as [->|Hb]; [|exfalso; apply Q; eauto]. exists b. split; [now left|]. split; [assumption|].
    intros d [<-|Hd] Pd; [lra|]. exfalso. apply Q. eauto.
Qed.
Lemma length_matching M : (length M <= length (lefts M) + length (rights M))%nat.
Proof.
  induction M as [|e M IH]; [cbn; lia|]. unfold lefts, rights in *. cbn [flat_map length]. rewrite !app_length.
  destruct e; cbn [length]; lia.
Qed.
Definition all_edges (x y : list (Qc * Qc)) : list edge :=
  flat_map (fun p => map (Pair p) y) x ++ map LeftOnly x ++ map RightOnly y.
Lemma matching_edges x y M : is_matching x y M -> incl M (all_edges x y).
Proof.
  intros [HL HR] e He.
  assert (L : forall p, In p (lefts M) -> In p x) by (intros p; now apply Permutation_in).
  assert (R : forall p, In p (rights M) -> In p y) by (intros p; now apply Permutation_in).
  unfold all_edges. apply in_or_app.
  destruct e as [p q|p|q].
  - left. apply in_flat_map. exists p. split; [|apply in_map].
    + apply L. apply in_flat_map. exists (Pair p q). split; [assumption|now left].
    + apply R. apply in_flat_map. exists (Pair p q). split; [assumption|now left].
  - right. apply in_or_app. left. apply in_map. apply L. apply in_flat_map. exists (LeftOnly p). split; [assumption|now left].
  - right. apply in_or_app. right. apply in_map. apply R. apply in_flat_map. exists (RightOnly q). split; [assumption|now left].
Qed.
Lemma lefts_app a b : lefts (a ++ b) = lefts a ++ lefts b. Proof. apply flat_map_app. Qed.
Lemma rights_app a b : rights (a ++ b) = rights a ++ rights b. Proof. apply flat_map_app. Qed.
Lemma lefts_LeftOnly l : lefts (map LeftOnly l) = l.
Proof. induction l as [|a l IH]; [reflexivity|]. unfold lefts in *. cbn. now rewrite IH. Qed.
Lemma rights_LeftOnly l : rights (map LeftOnly l) = [].
Proof. induction l as [|a l IH]; [reflexivity|]. exact IH. Qed.
Lemma lefts_RightOnly l : lefts (map RightOnly l) = [].
Proof. induction l as [|a l IH]; [reflexivity|]. exact IH. Qed.
Lemma rights_RightOnly l : rights (map RightOnly l) = l.
Proof. induction l as [|a l IH]; [reflexivity|]. unfold rights in *. cbn. now rewrite IH. Qed.

(** Every two diagrams have an optimal matching, hence a matching distance, for
    every exponent. *)
Theorem matching_distance_exists p x y : ge1 p -> exists r, is_matching_distance p x y r.
Proof.
  intros Hp. apply ge1_pos in Hp.
  destruct (least_exists (words (all_edges x y) (length x + length y)) (is_matching x y) (fun M => norm p (map ecost M))) as [M [_ [HM HL]]].
  - exists (map LeftOnly x ++ map RightOnly y).
    assert (HM : is_matching x y (map LeftOnly x ++ map RightOnly y)).
    { split; [rewrite lefts_app, lefts_LeftOnly, lefts_RightOnly, app_nil_r|rewrite rights_app, rights_LeftOnly, rights_RightOnly]; apply Permutation_refl. }
    split; [|exact HM]. apply words_In; [rewrite app_length, !map_length; lia|]. now apply matching_edges.
  - exists (norm p (map ecost M)). split; [exists M; split; [assumption|now apply matching_cost_iff]|].
    intros M' r' HM' HC. apply (matching_cost_iff p M' r' Hp) in HC. subst r'. apply HL; [|assumption].
    apply words_In; [|now apply matching_edges]. pose proof (length_matching M') as LM. destruct HM' as [P1 P2].
    apply Permutation_length in P1, P2. lia.
Qed.

(** *** tents *)
Lemma qr_lt_iff a b : (a < b)%Qc <-> (qr a < qr b)%R.
Proof.
  split; [apply qr_lt|]. intros H. destruct (Qclt_le_dec a b) as [|L]; [assumption|]. apply qr_le in L. lra.
Qed.
Lemma qr_smax a b : qr (smax a b) = Rmax (qr a) (qr b).
Proof.
  unfold smax. destruct (Qcleb a b) eqn:E.
  - apply Qcleb_le, qr_le in E. now rewrite Rmax_right.
  - destruct (Qclt_le_dec b a) as [L|L]; [|apply Qcleb_le in L; congruence]. apply qr_lt in L. rewrite Rmax_left; lra.
Qed.
Lemma qr_smin a b : qr (smin a b) = Rmin (qr a) (qr b).
Proof.
  unfold smin. destruct (Qcleb a b) eqn:E.
  - apply Qcleb_le, qr_le in E. now rewrite Rmin_left.
  - destruct (Qclt_le_dec b a) as [L|L]; [|apply Qcleb_le in L; congruence]. apply qr_lt in L. rewrite Rmin_right; lra.
Qed.
Lemma qr_tent t p : qr (tent t p) = Rmax 0 (Rmin (qr t - qr (fst p)) (qr (snd p) - qr t)).
Proof. unfold tent. now rewrite qr_smax, qr_smin, qr_0, !qr_sub. Qed.
Ltac rminmax := unfold Rmin; repeat match goal with
  | |- context [Rle_dec ?a ?b] => destruct (Rle_dec a b) end;
  unfold Rmax; repeat match goal with
  | |- context [Rle_dec ?a ?b] => destruct (Rle_dec a b) end;
  repeat match goal with H : ~ (_ <= _)%R |- _ => apply Rnot_le_lt in H end; lra.
Lemma tent_lipschitz t p q : (qr (tent t p) - qr (tent t q) <= cheb (real_pt p) (real_pt q))%R.
Proof.
  rewrite !qr_tent. unfold cheb, real_pt. cbn [fst snd].
  generalize (qr t) (qr (fst p)) (qr (snd p)) (qr (fst q)) (qr (snd q)). intros T b d b' d'.
  pose proof (Rmax_l (Rabs (b - b')) (Rabs (d - d'))) as M1. pose proof (Rmax_r (Rabs (b - b')) (Rabs (d - d'))) as M2.
  set (r := Rmax (Rabs (b - b')) (Rabs (d - d'))) in *. pose proof (Rle_abs (- (b - b'))) as A. rewrite Rabs_Ropp in A. pose proof (Rle_abs (d - d')) as B.
  pose proof (Rabs_pos (b - b')). clearbody r. rminmax.
Qed.
Lemma tent_diag_le t p : (qr (tent t p) <= Rabs (life p) / 2)%R.
Proof.
  rewrite qr_tent. unfold life. rewrite qr_sub. pose proof (Rle_abs (qr (snd p) - qr (fst p))) as A. pose proof (Rabs_pos (qr (snd p) - qr (fst p))) as B.
  rminmax.
Qed.

(** *** counting *)
Definition cnt {A} (P : A -> bool) (l : list A) : Z := zlen (filter P l).
Lemma cnt_perm {A} (P : A -> bool) l l' : Permutation l l' -> cnt P l = cnt P l'.
Proof.
  intros H. unfold cnt. induction H as [|a l l' _ IH|a b l|l1 l2 l3 _ IH1 _ IH2]; cbn [filter]; [reflexivity| | |congruence].
  - destruct (P a); [rewrite !zlen_cons; lia|assumption].
  - destruct (P a), (P b); rewrite ?zlen_cons; lia.
Qed.
Lemma cnt_map {A B} (f : A -> B) P l : cnt P (map f l) = cnt (fun a => P (f a)) l.
Proof. unfold cnt. induction l as [|a l IH]; [reflexivity|]. cbn [map filter]. destruct (P (f a)); rewrite ?zlen_cons; lia. Qed.
Lemma cnt_app {A} (P : A -> bool) l l' : cnt P (l ++ l') = cnt P l + cnt P l'.
Proof. unfold cnt. now rewrite filter_app, zlen_app. Qed.
Lemma cnt_nonneg {A} (P : A -> bool) l : 0 <= cnt P l. Proof. apply zlen_nonneg. Qed.
Lemma cnt_le {A} (P : A -> bool) l : cnt P l <= zlen l.
Proof. unfold cnt. induction l as [|a l IH]; [cbn; lia|]. cbn [filter]. destruct (P a); rewrite !zlen_cons; lia. Qed.
Lemma cnt_all {A} (P : A -> bool) l : (forall a, In a l -> P a = true) -> cnt P l = zlen l.
Proof.
  unfold cnt. induction l as [|a l IH]; intros H; [reflexivity|]. cbn [filter]. rewrite (H a) by now left. rewrite !zlen_cons. rewrite IH; [reflexivity|].
  intros; apply H; now right.
Qed.
Lemma cnt_none {A} (P : A -> bool) l : (forall a, In a l -> P a = false) -> cnt P l = 0.
Proof.
  unfold cnt. induction l as [|a l IH]; intros H; [reflexivity|]. cbn [filter]. rewrite (H a) by now left. apply IH. intros; apply H; now right.
Qed.
Lemma desc_split (l1 l2 : list Qc) v : StronglySorted (fun a b => (b <= a)%Qc) (l1 ++ v :: l2) ->
  (forall a, In a l1 -> (v <= a)%Qc) /\ (forall a, In a l2 -> (a <= v)%Qc).
Proof.
  induction l1 as [|b l1 IH]; cbn [app]; intros H; inversion H as [|? ? H1 H2]; subst; rewrite Forall_forall in H2.
  - split; [intros a []|auto].
  - apply IH in H1. destruct H1 as [H3 H4]. split; [|assumption]. intros a [<-|Ha]; [|auto]. apply H2. apply in_or_app. right. now left.
Qed.
Lemma kth_count_ge l k v : 0 <= k -> kth_largest l k v -> (v <> 0)%Qc -> k + 1 <= cnt (Qcleb v) l.
Proof.
  intros Hk [L [P [S H]]] Hv. destruct H as [H|[_ H]]; [|contradiction]. rewrite <- (cnt_perm _ _ _ P).
  apply Znth_split in H. destruct H as [l1 [l2 [-> <-]]]. apply desc_split in S. destruct S as [S1 _].
  change (v :: l2) with ([v] ++ l2). rewrite !cnt_app. rewrite (cnt_all (Qcleb v) l1) by (intros a Ha; apply Qcleb_le; auto).
  rewrite (cnt_all (Qcleb v) [v]) by (intros a [<-|[]]; apply Qcleb_le, Qcle_refl). rewrite zlen_cons, zlen_nil. pose proof (cnt_nonneg (Qcleb v) l2). lia.
Qed.
Lemma kth_count_gt l k w : 0 <= k -> kth_largest l k w -> cnt (Qcltb w) l <= k.
Proof.
  intros Hk [L [P [S H]]]. rewrite <- (cnt_perm _ _ _ P). destruct H as [H|[H _]]; [|pose proof (cnt_le (Qcltb w) L); lia].
  apply Znth_split in H. destruct H as [l1 [l2 [-> <-]]]. apply desc_split in S. destruct S as [_ S2].
  rewrite cnt_app. rewrite (cnt_none (Qcltb w) (w :: l2)); [pose proof (cnt_le (Qcltb w) l1); lia|].
  intros a Ha. destruct (Qcltb w a) eqn:E; [|reflexivity]. exfalso. apply Qcltb_lt in E.
  assert (a <= w)%Qc by (destruct Ha as [<-|Ha]; [apply Qcle_refl|auto]). qlra.
Qed.

Lemma Forall2_Znth_ex {A B} (R : A -> B -> Prop) l l' i a : Forall2 R l l' -> Znth l i = Some a -> exists b, Znth l' i = Some b /\ R a b.
Proof.
  intros HF. unfold Znth. destruct (i <? 0); [discriminate|]. generalize (Z.to_nat i).
  induction HF as [|x y l l' Hxy _ IH]; intros n; destruct n as [|n]; cbn; intros H; try discriminate; [injection H as <-; eauto|eauto].
Qed.

(** *** layers *)
Lemma kth_nonneg t x k v : kth_largest (map (tent t) x) k v -> (0 <= v)%Qc.
Proof.
  intros [L [P [_ [H|[_ ->]]]]]; [|apply Qcle_refl]. apply Znth_In in H. apply (Permutation_in _ P) in H. apply in_map_iff in H. destruct H as [p [<- _]]. apply tent_nonneg.
Qed.
Lemma cnt_matching (P Q : Qc * Qc -> bool) M :
  (forall p, In (LeftOnly p) M -> P p = false) -> (forall p q, In (Pair p q) M -> P p = true -> Q q = true) ->
  cnt P (lefts M) <= cnt Q (rights M).
Proof.
  induction M as [|e M IH]; intros H1 H2; [cbn; lia|]. unfold lefts, rights in *. cbn [flat_map]. rewrite !cnt_app.
  assert (L : cnt P (flat_map (fun e => match e with Pair p _ | LeftOnly p => [p] | RightOnly _ => [] end) M) <=
              cnt Q (flat_map (fun e => match e with Pair _ q | RightOnly q => [q] | LeftOnly _ => [] end) M)).
  { apply IH; [intros p Hp; apply H1; now right|intros p q Hp; apply H2; now right]. }
  destruct e as [p q|p|q].
  - unfold cnt at 1 3. cbn [filter]. specialize (H2 p q (or_introl eq_refl)). destruct (P p); [rewrite (H2 eq_refl)|destruct (Q q)]; rewrite ?zlen_cons, ?zlen_nil; lia.
  - unfold cnt at 1 3. cbn [filter]. rewrite (H1 p) by now left. rewrite ?zlen_nil. lia.
  - pose proof (cnt_nonneg Q [q]). unfold cnt at 1. cbn [filter]. rewrite zlen_nil. lia.
Qed.
Lemma layer_stable_le x y M r t k v w : is_matching x y M -> (0 <= r)%R -> (forall e, In e M -> (ecost e <= r)%R) -> 0 <= k ->
  kth_largest (map (tent t) x) k v -> kth_largest (map (tent t) y) k w -> (qr v <= qr w + r)%R.
Proof.
  intros [ML MR] Hr HM Hk Hv Hw. destruct (Rle_or_lt (qr v) (qr w + r)) as [|N]; [assumption|exfalso].
  pose proof (kth_nonneg _ _ _ _ Hw) as W0. apply qr_le in W0. rewrite qr_0 in W0.
  assert (V0 : v <> 0%Qc) by (intros ->; rewrite qr_0 in N; lra).
  pose proof (kth_count_ge _ _ _ Hk Hv V0) as C1. pose proof (kth_count_gt _ _ _ Hk Hw) as C2. rewrite cnt_map in C1, C2.
  rewrite <- (cnt_perm _ _ _ ML) in C1. rewrite <- (cnt_perm _ _ _ MR) in C2.
  assert (C : cnt (fun p => Qcleb v (tent t p)) (lefts M) <= cnt (fun p => Qcltb w (tent t p)) (rights M)); [|lia].
  apply cnt_matching.
  - intros p Hp. destruct (Qcleb v (tent t p)) eqn:E; [|reflexivity]. exfalso. apply Qcleb_le, qr_le in E. apply HM in Hp. cbn [ecost] in Hp.
    pose proof (tent_diag_le t p). lra.
  - intros p q Hp E. apply Qcleb_le, qr_le in E. apply HM in Hp. cbn [ecost] in Hp. apply Qcltb_lt, qr_lt_iff. pose proof (tent_lipschitz t p q). lra.
Qed.
Definition flip (e : edge) : edge := match e with Pair p q => Pair q p | LeftOnly p => RightOnly p | RightOnly p => LeftOnly p end.
Lemma lefts_flip M : lefts (map flip M) = rights M.
Proof. induction M as [|e M IH]; [reflexivity|]. unfold lefts, rights in *. cbn [map flat_map]. rewrite IH. destruct e; reflexivity. Qed.
Lemma rights_flip M : rights (map flip M) = lefts M.
Proof. induction M as [|e M IH]; [reflexivity|]. unfold lefts, rights in *. cbn [map flat_map]. rewrite IH. destruct e; reflexivity. Qed.
Lemma ecost_flip e : ecost (flip e) = ecost e.
Proof. destruct e as [p q|p|p]; cbn [flip ecost]; try reflexivity. unfold cheb. f_equal; apply Rabs_minus_sym. Qed.

(** Along a matching of cost [r], for any exponent, each layer of the landscape
    changes by at most [r] at each point. *)
Theorem landscape_layer_stable o x y M r t k v w :
  ge1 o -> is_matching x y M -> matching_cost o M r -> 0 <= k ->
  kth_largest (map (tent t) x) k v -> kth_largest (map (tent t) y) k w ->
  (Rabs (qr v - qr w) <= r)%R.
Proof.
  intros Ho HM HC Hk Hv Hw. apply ge1_pos in Ho. pose proof (matching_cost_edges o M r Ho HC) as HE.
  assert (Hr : (0 <= r)%R) by (destruct HC as [cs [_ [Hr _]]]; exact Hr).
  pose proof (layer_stable_le x y M r t k v w HM Hr HE Hk Hv Hw) as H1.
  assert (HM' : is_matching y x (map flip M)) by (split; [rewrite lefts_flip|rewrite rights_flip]; apply HM).
  assert (HE' : forall e, In e (map flip M) -> (ecost e <= r)%R) by (intros e He; apply in_map_iff in He; destruct He as [e' [<- He]]; rewrite ecost_flip; auto).
  pose proof (layer_stable_le y x (map flip M) r t k w v HM' Hr HE' Hk Hw Hv) as H2. apply Rabs_le. lra.
Qed.
Lemma landscape_layer_off t x k v : kth_largest (map (tent t) x) k v <-> kth_largest (map (tent t) (off_diagonal x)) k v.
Proof.
  split; intros H; pose proof (kth_largest_layer _ _ _ H) as E.
  - destruct (Z.lt_ge_cases k 0) as [N|N].
    + destruct H as [L [P [S [H|[H _]]]]]; [|pose proof (zlen_nonneg L); lia]. unfold Znth in H. destruct (Z.ltb_spec k 0); [discriminate|lia].
    + rewrite E, layer_off. now apply layer_kth.
  - destruct (Z.lt_ge_cases k 0) as [N|N].
    + destruct H as [L [P [S [H|[H _]]]]]; [|pose proof (zlen_nonneg L); lia]. unfold Znth in H. destruct (Z.ltb_spec k 0); [discriminate|lia].
    + rewrite E, <- layer_off. now apply layer_kth.
Qed.

(** The values PersistenceLandscape returns for two diagrams differ by at most
    the cost of any matching of their points, e.g. by at most their bottleneck
    distance. *)
Theorem persistence_landscape_stable partition n_layers n_bins n_jobs X Y :
  is_partition partition -> 1 <= n_layers -> 1 <= n_bins -> 1 <= n_jobs -> trainable X ->
  transformable (map pq (hd [] X)) Y ->
  exists dims L, dimensions_of X dims /\
    persistence_landscape partition n_layers n_bins n_jobs X Y = Ok L /\
    forall i i' y y' j q k c, Znth Y i = Some y -> Znth Y i' = Some y' ->
      Znth dims j = Some q -> 0 <= k < n_layers -> 0 <= c < n_bins ->
      exists a b, value3 L i (j * n_layers + k) c = Some a /\ value3 L i' (j * n_layers + k) c = Some b /\
        forall o M r, ge1 o -> is_matching (points_of q y) (points_of q y') M -> matching_cost o M r ->
          (Rabs (qr a - qr b) <= r)%R.
Proof.
  intros HP HL Hn HJ HT HY. destruct (persistence_landscape_spec partition n_layers n_bins X HP HL Hn HT) as [g [HG H]].
  destruct (H n_jobs Y HJ HY) as [L [E HF]]. exists (map fst g), L. split; [exact (proj1 HG)|]. split; [exact E|].
  intros i i' y y' j q k c Hi Hi' Hj Hk Hc. rewrite Znth_map in Hj. destruct (Znth g j) as [[q' [s step]]|] eqn:Eg; [|discriminate]. cbn in Hj.
  assert (q' = q) by congruence. subst q'.
  assert (Ht : exists t, Znth s c = Some t).
  { apply Znth_ex. destruct HG as [_ HV]. destruct (HV q s step (Znth_In _ _ _ Eg)) as [lo [hi [_ [Ls _]]]]. lia. }
  destruct Ht as [t Ht].
  destruct (Forall2_Znth_ex _ _ _ _ _ HF Hi) as [A [EA [_ HA]]]. destruct (Forall2_Znth_ex _ _ _ _ _ HF Hi') as [B [EB [_ HB]]].
  destruct (HA j q s step k c t Eg Hk Ht) as [a [Ea Ka]]. destruct (HB j q s step k c t Eg Hk Ht) as [b [Eb Kb]].
  exists a, b. unfold value3, entry in *. rewrite EA, EB. split; [exact Ea|]. split; [exact Eb|].
  intros o M r Ho HM HC. eapply landscape_layer_stable; try eassumption. lia.
Qed.

(** *** distances and amplitudes *)
Lemma increasing_unique l l' : increasing l -> increasing l' -> (forall q, In q l <-> In q l') -> l = l'.
Proof.
  revert l'. induction l as [|x l IH]; intros [|y l'] H H' E; [reflexivity| | |].
  - destruct (proj2 (E y)); now left.
  - destruct (proj1 (E x)); now left.
  - apply increasing_inv in H, H'. destruct H as [H1 H2], H' as [H1' H2'].
    assert (x = y).
    { destruct (proj1 (E x) (or_introl eq_refl)) as [|Hx]; [auto|]. destruct (proj2 (E y) (or_introl eq_refl)) as [|Hy]; [auto|].
      specialize (H2 _ Hy). specialize (H2' _ Hx). pose proof (flt_trans _ _ _ H2 H2') as F. now rewrite flt_irrefl in F. }
    subst y. f_equal. apply IH; try assumption. intros q. split; intros Hq.
    + destruct (proj1 (E q) (or_intror Hq)) as [<-|]; [|assumption]. apply H2 in Hq. now rewrite flt_irrefl in Hq.
    + destruct (proj2 (E q) (or_intror Hq)) as [<-|]; [|assumption]. apply H2' in Hq. now rewrite flt_irrefl in Hq.
Qed.
Lemma norm_bound p v r : pos_p p -> (0 <= r)%R -> (forall x, In x v -> (Rabs x <= r)%R) ->
  (norm p v <= match p with Pfin a => rpow (IZR (zlen v)) (1 / a) | Pinf => 1 end * r)%R.
Proof.
  intros Hp Hr H. destruct p as [a|]; cbn [norm].
  - cbn in Hp. assert (A : (0 < 1 / a)%R) by (apply Rdiv_lt_0_compat; lra).
    rewrite <- (rpow_inv r a) at 1 by lra. rewrite <- rpow_prod; [|apply IZR_le, zlen_nonneg|apply rpow_nonneg; lra|lra].
    apply rpow_le; [|assumption]. split; [apply rsum_nonneg; apply abs_pow_nonneg|].
    induction v as [|x v IH]; [cbn; lra|]. cbn [map]. rewrite rsum_cons, zlen_cons, plus_IZR.
    assert (rpow (Rabs x) a <= rpow r a)%R by (apply rpow_le; [split; [apply Rabs_pos|apply H; now left]|lra]).
    assert (rsum (map (fun x => rpow (Rabs x) a) v) <= IZR (zlen v) * rpow r a)%R by (apply IH; intros; apply H; now right). lra.
  - rewrite Rmult_1_l. apply rmax_le; [assumption|]. intros x Hx. apply in_map_iff in Hx. destruct Hx as [y [<- Hy]]. auto.
Qed.
Lemma Forall2_concat {A B} (R : A -> B -> Prop) l l' : Forall2 (Forall2 R) l l' -> Forall2 R (concat l) (concat l').
Proof. induction 1; cbn [concat]; [constructor|]. now apply Forall2_app. Qed.
Lemma Forall2_tabZ {A B} (R : A -> B -> Prop) n f g : (forall k, 0 <= k < n -> R (f k) (g k)) -> Forall2 R (tabZ n f) (tabZ n g).
Proof.
  intros H. unfold tabZ. apply Forall2_map_left', Forall2_map_right, Forall2_same. intros k Hk. apply H.
  apply in_seq in Hk. lia.
Qed.
Lemma vsub_In (R : R -> R -> Prop) u v d : Forall2 R u v -> In d (vsub u v) -> exists a b, R a b /\ d = (a - b)%R.
Proof.
  induction 1 as [|a b u v H _ IH]; [intros []|]. unfold vsub in *. cbn [combine map]. intros [<-|Hd]; [eauto|auto].
Qed.
Lemma Forall2_ends {A B} (R : A -> B -> Prop) l l' : Forall2 R l l' -> zlen l = zlen l'.
Proof. apply Forall2_zlen. Qed.
Lemma curve_stable E p L g o x y M r : ge1 o -> is_matching x y M -> matching_cost o M r ->
  Forall2 (fun a b => (Rabs (a - b) <= r)%R) (mcurve E (Landscape p L) g x) (mcurve E (Landscape p L) g y).
Proof.
  intros Ho HM HC. cbn [mcurve]. apply Forall2_map_left', Forall2_map_right, Forall2_concat, Forall2_tabZ. intros k Hk.
  apply Forall2_map_left', Forall2_map_right, Forall2_same. intros t _.
  eapply landscape_layer_stable; try eassumption; [apply Hk| |]; apply layer_kth; lia.
Qed.
Lemma curve_off E p L g x : mcurve E (Landscape p L) g x = mcurve E (Landscape p L) g (off_diagonal x).
Proof.
  cbn [mcurve]. f_equal. f_equal. unfold tabZ. apply map_ext. intros k. apply map_ext. intros t. apply layer_off.
Qed.
Lemma scale_ok E p L n (e : fl * grid) v r : good_parameters E (Landscape p L) n -> entry_ok (Landscape p L) n (snd e) -> (0 <= r)%R ->
  zlen v = L * n -> (forall x, In x v -> (Rabs x <= r)%R) ->
  exists f, landscape_scale p L n (snd e) f /\ (0 <= norm p v * mfactor (Landscape p L) (snd e) <= f * r)%R.
Proof.
  intros HG HE Hr Hl Hv. pose proof (mfactor_ok E (Landscape p L) n (snd e) HG HE) as [HF HF0]. pose proof HG as [Hp _]. cbn [exponent] in Hp.
  pose proof (norm_bound p v r (ge1_pos p Hp) Hr Hv) as HN. pose proof (norm_nonneg p v) as N0.
  destruct p as [a|]; cbn [is_factor exponent landscape_scale ge1] in *.
  - destruct HF as [s [Es Ec]]. assert (S0 : (0 <= qr s)%R).
    { rewrite <- qr_0. apply qr_le. destruct HG as [_ [_ [_ [Hn1 Hn]]]]. assert (2 <= n) by (destruct (Z.eq_dec n 1) as [e1|]; [apply Hn in e1; discriminate|lia]).
      destruct HE as [HA _]. destruct (axis_step n (fst (snd e)) ltac:(lia) HA) as [st [E1 H0]]. rewrite Es in E1. now injection E1 as ->. }
    assert (A : (0 < 1 / a)%R) by (apply Rdiv_lt_0_compat; lra).
    eexists. split; [exists s; split; [exact Es|reflexivity]|]. rewrite Hl in HN. rewrite spow_rpow in * by lra. rewrite Ec in *.
    assert (Z0 : (0 <= IZR (L * n))%R) by (apply IZR_le; rewrite <- Hl; apply zlen_nonneg).
    rewrite rpow_prod by lra. pose proof (rpow_nonneg (qr s) (1 / a) S0) as C0. nra.
  - exists 1%R. split; [reflexivity|]. rewrite HF in *. lra.
Qed.

(** Landscape distances are bounded by the cost of any matching. *)
Theorem landscape_distance_stable E p L n X :
  good_parameters E (Landscape p L) n -> trainable X ->
  exists g, metric_grids (Landscape p L) n X g /\
    forall n_jobs Y, 1 <= n_jobs -> transformable (map pq (hd [] X)) Y ->
    exists D, pairwise_distance E (Landscape p L) n n_jobs X Y = Ok D /\
      forall i j c y x e, Znth Y i = Some y -> Znth X j = Some x -> Znth g c = Some e ->
        exists r, value3 D i j c = Some (Some r) /\ (0 <= r)%R /\
          forall o M cost, ge1 o ->
            is_matching (points_of (fst e) y) (points_of (fst e) x) M \/
            is_matching (off_diagonal (points_of (fst e) y)) (off_diagonal (points_of (fst e) x)) M ->
            matching_cost o M cost ->
            exists f, landscape_scale p L n (snd e) f /\ (r <= f * cost)%R.
Proof.
  intros HG HT. destruct (pairwise_distance_ok E (Landscape p L) n X I HG HT I) as [g [_ [HM [_ [HE [HK H]]]]]]. exists g. split; [exact HM|].
  intros n_jobs Y HJ HY. eexists. split; [apply H; (assumption || exact I)|]. intros i j c y x e Hy Hx Hc.
  exists (dval E (Landscape p L) e y x). split.
  { unfold value3, entry. rewrite Znth_map, Hy. cbn [option_map]. rewrite Znth_map, Hx. cbn [option_map]. now rewrite Znth_map, Hc. }
  assert (He : entry_ok (Landscape p L) n (snd e)) by (apply (HE (fst e)); rewrite <- surjective_pairing; now apply Znth_In in Hc).
  split; [now apply (dval_nonneg E (Landscape p L) n)|]. intros o M cost Ho HMt HC.
  assert (Hr : (0 <= cost)%R) by (destruct HC as [cs [_ [Hr _]]]; exact Hr).
  assert (Hq : In (fst e) (map pq (hd [] X))) by (apply HK, in_map; now apply Znth_In in Hc).
  assert (Oy : okpt (Landscape p L) (points_of (fst e) y)) by (apply (okpt_of _ (map pq (hd [] X)) Y); try assumption; [exact I|now apply Znth_In in Hy]).
  assert (Ox : okpt (Landscape p L) (points_of (fst e) x)) by (apply (okpt_of _ (map pq (hd [] X)) X); try assumption; [now apply trainable_transformable|exact I|now apply Znth_In in Hx]).
  assert (HS : Forall2 (fun a b => (Rabs (a - b) <= cost)%R) (mcurve E (Landscape p L) (snd e) (points_of (fst e) y)) (mcurve E (Landscape p L) (snd e) (points_of (fst e) x))).
  { destruct HMt as [HMt|HMt]; [now apply (curve_stable E p L (snd e) o _ _ M)|]. rewrite (curve_off _ _ _ _ (points_of (fst e) y)), (curve_off _ _ _ _ (points_of (fst e) x)).
    now apply (curve_stable E p L (snd e) o _ _ M). }
  destruct (scale_ok E p L n e (vsub (mcurve E (Landscape p L) (snd e) (points_of (fst e) y)) (mcurve E (Landscape p L) (snd e) (points_of (fst e) x))) cost HG He Hr) as [f [Hf Hb]].
  - unfold vsub. rewrite zlen_map. pose proof (mcurve_len E (Landscape p L) n (snd e) _ I HG He Oy) as L1. pose proof (mcurve_len E (Landscape p L) n (snd e) _ I HG He Ox) as L2.
    cbn [curve_len] in L1, L2. unfold zlen in *. rewrite combine_length. lia.
  - intros d Hd. destruct (vsub_In _ _ _ _ HS Hd) as [a [b [Hab ->]]]. exact Hab.
  - exists f. split; [exact Hf|]. unfold dval, mink. cbn [exponent]. apply Hb.
Qed.

(** So landscape distances never exceed bottleneck or Wasserstein distances
    (for exponent infinity; up to the scale of the grid otherwise), whenever the
    algorithm for the latter never underestimates the cost of optimal matchings. *)
Theorem landscape_below_point_distance E p L m delta n X :
  good_parameters E (Landscape p L) n -> ~ vectorised m -> ge1 (exponent m) -> trainable X ->
  approximates delta (exponent m)
    (match m with Bottleneck => x_bottleneck E | Wasserstein p => x_wasserstein E p | _ => fun _ _ => 0%R end) ->
  exists g, metric_grids (Landscape p L) n X g /\
    forall n_jobs Y, 1 <= n_jobs -> transformable (map pq (hd [] X)) Y ->
    exists D D', pairwise_distance E (Landscape p L) n n_jobs X Y = Ok D /\
      pairwise_distance E m n n_jobs X Y = Ok D' /\
      forall i j c e, 0 <= i < zlen Y -> 0 <= j < zlen X -> Znth g c = Some e ->
        exists r s f, value3 D i j c = Some (Some r) /\ value3 D' i j c = Some (Some s) /\
          landscape_scale p L n (snd e) f /\ (0 <= r <= f * s)%R.
Proof.
  intros HG HV Hm HT HA. assert (Hn : 1 <= n) by (destruct HG as [_ G]; lia).
  destruct (landscape_distance_stable E p L n X HG HT) as [g [HM H]]. exists g. split; [exact HM|]. intros n_jobs Y HJ HY.
  destruct (H n_jobs Y HJ HY) as [D [ED HD]].
  destruct (pairwise_point_distance_spec E m n X HV Hn HT) as [dims [Hd HP]].
  assert (Edims : dims = map fst g).
  { destruct HM as [[I1 K1] _]. rewrite map_map in I1, K1. cbn [fst] in I1, K1. destruct Hd as [I2 K2].
    apply (increasing_unique dims (map fst g)); try assumption. intros q. rewrite K1, K2. reflexivity. }
  exists D. eexists. split; [exact ED|]. split; [apply HP; assumption|]. intros i j c e Hi Hj Hc.
  destruct (Znth_ex Y i Hi) as [y Ey]. destruct (Znth_ex X j Hj) as [x Ex].
  destruct (HD i j c y x e Ey Ex Hc) as [r [Er [R0 HB]]].
  destruct (matching_distance_exists (exponent m) (off_diagonal (points_of (fst e) y)) (off_diagonal (points_of (fst e) x)) Hm) as [b Hb].
  pose proof (HA _ _ _ Hb) as [Hs _]. destruct Hb as [[M [HMt HC]] _].
  destruct (HB (exponent m) M b Hm (or_intror HMt) HC) as [f [Hf Hrf]].
  exists r. eexists. exists f. split; [exact Er|]. split.
  { unfold value3, entry. rewrite Znth_map, Ey. cbn [option_map]. rewrite Znth_map, Ex. cbn [option_map]. rewrite Znth_map, Edims, Znth_map, Hc. reflexivity. }
  split; [exact Hf|]. split; [exact R0|]. assert (F0 : (0 <= f)%R).
  { destruct p as [a|]; cbn in Hf; [destruct Hf as [st [_ ->]]; unfold spow; destruct (Req_EM_T _ _); [lra|left; apply exp_pos]|lra]. }
  assert (Hs' : (b <= match m with
            | Bottleneck => x_bottleneck E (off_diagonal (points_of (fst e) y)) (off_diagonal (points_of (fst e) x))
            | Wasserstein p => x_wasserstein E p (off_diagonal (points_of (fst e) y)) (off_diagonal (points_of (fst e) x))
            | _ => 0
            end)%R) by (destruct m; exact Hs).
  eapply Rle_trans; [exact Hrf|]. now apply Rmult_le_compat_l.
Qed.

(** The same for amplitudes, with no assumption on the algorithms. *)
Theorem landscape_amplitude_below_point_amplitude E p L m n X :
  good_parameters E (Landscape p L) n -> ~ vectorised m -> ge1 (exponent m) -> trainable X ->
  exists g, metric_grids (Landscape p L) n X g /\
    forall n_jobs Y, 1 <= n_jobs -> transformable (map pq (hd [] X)) Y ->
    (m = Bottleneck -> has_points (map pq (hd [] X)) Y) ->
    exists A A', amplitude E (Landscape p L) n n_jobs X Y = Ok A /\
      amplitude E m n n_jobs X Y = Ok A' /\
      forall i c e, 0 <= i < zlen Y -> Znth g c = Some e ->
        exists r s f, entry A i c = Some (Some r) /\ entry A' i c = Some (Some s) /\
          landscape_scale p L n (snd e) f /\ (0 <= r <= f * s)%R.
Proof.
  intros HG HV Hm HT. assert (Hn : 1 <= n) by (destruct HG as [_ G]; lia).
  destruct (amplitude_ok E (Landscape p L) n X HG HT) as [g [_ [HM [_ [HE [HK H]]]]]]. exists g. split; [exact HM|]. intros n_jobs Y HJ HY HB.
  destruct (amplitude_is_optimal_matching E m n X HV Hm Hn HT) as [dims [Hd HP]].
  assert (Edims : dims = map fst g).
  { destruct HM as [[I1 K1] _]. rewrite map_map in I1, K1. cbn [fst] in I1, K1. destruct Hd as [I2 K2].
    apply (increasing_unique dims (map fst g)); try assumption. intros q. rewrite K1, K2. reflexivity. }
  subst dims. destruct (HP n_jobs Y HJ HY HB) as [A' [EA' FA']]. eexists. exists A'. split; [apply H; try assumption; [exact I|discriminate]|]. split; [exact EA'|].
  intros i c e Hi Hc. destruct (Znth_ex Y i Hi) as [y Ey].
  destruct (Forall2_Znth_ex _ _ _ _ _ FA' Ey) as [row [Erow Frow]].
  assert (Eq : Znth (map fst g) c = Some (fst e)) by now rewrite Znth_map, Hc.
  destruct (Forall2_Znth_ex _ _ _ _ _ Frow Eq) as [v [Ev [s [-> [[M [HMt HC]] _]]]]].
  assert (He : entry_ok (Landscape p L) n (snd e)) by (apply (HE (fst e)); rewrite <- surjective_pairing; now apply Znth_In in Hc).
  assert (Hs : (0 <= s)%R) by (destruct HC as [cs [_ [Hr _]]]; exact Hr).
  assert (Hq : In (fst e) (map pq (hd [] X))) by (apply HK, in_map; now apply Znth_In in Hc).
  assert (Oy : okpt (Landscape p L) (points_of (fst e) y)) by (apply (okpt_of _ (map pq (hd [] X)) Y); try assumption; [exact I|now apply Znth_In in Ey]).
  pose proof (curve_stable E p L (snd e) (exponent m) _ _ M s Hm HMt HC) as HS. rewrite <- curve_off in HS.
  destruct (scale_ok E p L n e (mcurve E (Landscape p L) (snd e) (points_of (fst e) y)) s HG He Hs) as [f [Hf Hb]].
  - exact (mcurve_len E (Landscape p L) n (snd e) _ I HG He Oy).
  - intros a Ha. apply In_Znth in Ha. destruct Ha as [k [_ Ha]]. destruct (Forall2_Znth_ex _ _ _ _ _ HS Ha) as [b [Eb Hab]].
    assert (b = 0%R).
    { apply Znth_In in Eb. cbn [mcurve] in Eb. apply in_map_iff in Eb. destruct Eb as [v [<- Hv]]. apply in_concat in Hv. destruct Hv as [l [Hl Hv]].
      apply In_tabZ in Hl. destruct Hl as [k' [_ <-]]. apply in_map_iff in Hv. destruct Hv as [t [<- _]]. unfold layer.
      change (sort_desc (map (tent t) [])) with (@nil Qc). unfold Znth. destruct (k' <? 0); [|destruct (Z.to_nat k')]; apply qr_0. }
    subst b. now rewrite Rminus_0_r in Hab.
  - exists (aval E (Landscape p L) e y), s, f. unfold entry. rewrite Znth_map, Ey, Erow. cbn [option_map]. rewrite Znth_map, Hc. cbn [option_map].
    repeat (split; [reflexivity || assumption|]). unfold aval. cbn [exponent]. exact Hb.
Qed.

(** *** An exact algorithm exists, so that the hypotheses above can be met. *)
Definition pt_dec (a b : Qc * Qc) : {a = b} + {a <> b}.
Proof. decide equality; apply Qc_eq_dec. Defined.
Definition perm_b (l l' : list (Qc * Qc)) : bool :=
  forallb (fun a => Nat.eqb (count_occ pt_dec l a) (count_occ pt_dec l' a)) (l ++ l').
Lemma perm_b_iff l l' : perm_b l l' = true <-> Permutation l l'.
Proof.
  unfold perm_b. rewrite forallb_forall. rewrite (Permutation_count_occ pt_dec). split.
  - intros H a. destruct (in_dec pt_dec a (l ++ l')) as [I|I]; [apply Nat.eqb_eq; auto|].
    rewrite !(proj1 (count_occ_not_In pt_dec _ a)); [reflexivity| |]; intros J; apply I; apply in_or_app; auto.
  - intros H a _. apply Nat.eqb_eq. apply H.
Qed.
Definition best_cost (p : expo) (x y : list (Qc * Qc)) : R :=
  let Ms := filter (fun M => perm_b (lefts M) x && perm_b (rights M) y) (words (all_edges x y) (length x + length y)) in
  fold_right (fun M r => Rmin (norm p (map ecost M)) r) (norm p (map ecost (hd [] Ms))) Ms.
Lemma fold_Rmin {A} (f : A -> R) l r0 : (forall a, In a l -> (fold_right (fun a r => Rmin (f a) r) r0 l <= f a)%R) /\
  (fold_right (fun a r => Rmin (f a) r) r0 l = r0 \/ exists a, In a l /\ fold_right (fun a r => Rmin (f a) r) r0 l = f a).
Proof.
  induction l as [|b l [IH1 IH2]]; [split; [intros a []|now left]|]. cbn [fold_right]. set (m := fold_right _ _ _) in *. split.
  - intros a [<-|Ha]; [apply Rmin_l|]. eapply Rle_trans; [apply Rmin_r|auto].
  - unfold Rmin. destruct (Rle_dec (f b) m); [right; exists b; split; [now left|reflexivity]|].
    destruct IH2 as [->|[a [Ha ->]]]; [now left|right; exists a; split; [now right|reflexivity]].
Qed.
Theorem best_cost_exact p x y : ge1 p -> is_matching_distance p x y (best_cost p x y).
Proof.
  intros Hp. destruct (matching_distance_exists p x y Hp) as [r [[M [HM HC]] HL]].
  apply ge1_pos in Hp. unfold best_cost. set (Ms := filter _ _).
  assert (HMs : forall M, In M Ms <-> is_matching x y M).
  { intros M'. unfold Ms. rewrite filter_In, Bool.andb_true_iff, !perm_b_iff. split; [intros [_ H]; exact H|]. intros H. split; [|exact H].
    apply words_In; [|now apply matching_edges]. pose proof (length_matching M') as LM. destruct H as [P1 P2]. apply Permutation_length in P1, P2. lia. }
  apply HMs in HM. clearbody Ms. destruct (fold_Rmin (fun M => norm p (map ecost M)) Ms (norm p (map ecost (hd [] Ms)))) as [F1 F2].
  assert (F3 : exists M', In M' Ms /\ fold_right (fun M r => Rmin (norm p (map ecost M)) r) (norm p (map ecost (hd [] Ms))) Ms = norm p (map ecost M')).
  { destruct F2 as [->|F2]; [|exact F2]. exists (hd [] Ms). split; [|reflexivity]. destruct Ms; [destruct HM|now left]. }
  destruct F3 as [M' [HM' E3]]. split.
  - exists M'. split; [now apply HMs|now apply matching_cost_iff].
  - intros M2 r2 H2 C2. apply (matching_cost_iff p M2 r2 Hp) in C2. subst r2. apply F1. now apply HMs.
Qed.
Corollary exact_algorithm_exists p : ge1 p -> approximates 0 p (best_cost p).
Proof.
  intros Hp x y r [[M [HM HC]] HL]. destruct (best_cost_exact p x y Hp) as [[M' [HM' HC']] HL'].
  pose proof (HL M' _ HM' HC'). pose proof (HL' M _ HM HC). lra.
Qed.

(** Two diagrams, a matching of cost 1 of their points in dimension 0, and
    externals that satisfy all hypotheses. *)
Definition stab_E : externals :=
  {| x_partition := fun _ l => rev (sort_desc l); x_gauss1 := fun _ im => im; x_gauss2 := fun _ im => im;
     x_bottleneck := best_cost Pinf; x_wasserstein := fun a => best_cost (Pfin a) |}.
Example stab_example :
  good_parameters stab_E (Landscape Pinf 2) 3 /\ good_parameters stab_E (Landscape (Pfin 2) 2) 3 /\
  approximates 0 Pinf (x_bottleneck stab_E) /\ approximates 0 (Pfin 2) (x_wasserstein stab_E 2) /\
  trainable (of_raw ex_raw0) /\ transformable (map pq (hd [] (of_raw ex_raw0))) (of_raw ex_raw0) /\
  has_points (map pq (hd [] (of_raw ex_raw0))) (of_raw ex_raw0) /\
  exists M, is_matching [(qz 0, qz 3); (qz 0, qz 1)] [(qz 1, qz 3)] M /\ matching_cost Pinf M 1.
Proof.
  assert (P : is_partition (x_partition stab_E)) by apply partition_exists. destruct ex_trivial as [T [_ Hp]].
  split; [split; [exact I|]; split; [lia|]; split; [exact P|]; split; [lia|reflexivity]|].
  split; [split; [cbn; lra|]; split; [lia|]; split; [exact P|]; split; [lia|discriminate]|].
  split; [apply exact_algorithm_exists; exact I|]. split; [apply (exact_algorithm_exists (Pfin 2)); cbn; lra|].
  split; [exact T|]. split; [now apply trainable_transformable|]. split; [exact Hp|].
  exists [Pair (qz 0, qz 3) (qz 1, qz 3); LeftOnly (qz 0, qz 1)]. split; [split; apply Permutation_refl|]. apply matching_cost_iff; [exact I|].
  cbn [map ecost norm]. unfold cheb, real_pt, life. cbn [fst snd rmax fold_right].
  rewrite !qr_sub. replace (qr (qz 1)) with 1%R by (unfold qr, Q2R; cbn; lra). replace (qr (qz 0)) with 0%R by (unfold qr, Q2R; cbn; lra).
  replace (0 - 1)%R with (-1)%R by lra. replace (1 - 0)%R with 1%R by lra.
  rewrite (Rminus_diag_eq (qr (qz 3)) _ eq_refl). rewrite Rabs_R0, Rabs_R1. rewrite (Rabs_left (-1)) by lra. rewrite (Rmax_left (- -1) 0) by lra.
  rewrite (Rabs_right (- -1)) by lra. rewrite (Rabs_right (1 / 2)) by lra. rewrite (Rmax_left (1 / 2) 0) by lra. rewrite Rmax_left by lra. lra.
Qed.

Print Assumptions matching_distance_exists.
Print Assumptions landscape_layer_stable.
Print Assumptions persistence_landscape_stable.
Print Assumptions landscape_distance_stable.
Print Assumptions landscape_below_point_distance.
Print Assumptions landscape_amplitude_below_point_amplitude.
Print Assumptions exact_algorithm_exists.
