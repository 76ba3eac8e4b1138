(** C82: bottleneck and Wasserstein distances of diagrams are pseudo-metrics that
    vanish exactly on diagrams with the same off-diagonal points, and decrease
    with the exponent. *)
From Coq Require Import Reals Lra Permutation.
From Verif Require Import Np NpFacts Fl FlFacts DiagTypes DiagModel DiagSpec DiagProofs DiagProofs2
  VecModel VecSpec SliceFacts VecProofs VecProofs2 VecProofs3 VecProofs4 VecThms RNp RNormFacts
  MetricModel MetricSpec MetricProofs MetricProofs2 MetricProofs3 MetricProofs4 MetricProofs5 MetricThms StabSpec StabThms.
Open Scope Z_scope.

(** *** composing matchings *)
Lemma cheb_triangle a b c : (cheb a c <= cheb a b + cheb b c)%R.
Proof.
  unfold cheb. apply Rmax_lub.
  - pose proof (Rabs_triang (fst a - fst b) (fst b - fst c)) as T.
    replace (fst a - fst b + (fst b - fst c))%R with (fst a - fst c)%R in T by lra.
    pose proof (Rmax_l (Rabs (fst a - fst b)) (Rabs (snd a - snd b))).
    pose proof (Rmax_l (Rabs (fst b - fst c)) (Rabs (snd b - snd c))). lra.
  - pose proof (Rabs_triang (snd a - snd b) (snd b - snd c)) as T.
    replace (snd a - snd b + (snd b - snd c))%R with (snd a - snd c)%R in T by lra.
    pose proof (Rmax_r (Rabs (fst a - fst b)) (Rabs (snd a - snd b))).
    pose proof (Rmax_r (Rabs (fst b - fst c)) (Rabs (snd b - snd c))). lra.
Qed.
Lemma cheb_sym a b : cheb a b = cheb b a.
Proof. unfold cheb. now rewrite (Rabs_minus_sym (fst a)), (Rabs_minus_sym (snd a)). Qed.
Lemma life_cheb p q : (Rabs (life p) / 2 <= cheb (real_pt p) (real_pt q) + Rabs (life q) / 2)%R.
Proof.
  unfold cheb, real_pt, life. cbn [fst snd]. rewrite !qr_sub.
  set (a := qr (fst p)). set (b := qr (snd p)). set (c := qr (fst q)). set (d := qr (snd q)).
  pose proof (Rmax_l (Rabs (a - c)) (Rabs (b - d))). pose proof (Rmax_r (Rabs (a - c)) (Rabs (b - d))).
  pose proof (Rabs_triang (b - d) (d - a)) as T1. replace (b - d + (d - a))%R with (b - a)%R in T1 by lra.
  pose proof (Rabs_triang (d - c) (c - a)) as T2. replace (d - c + (c - a))%R with (d - a)%R in T2 by lra.
  rewrite (Rabs_minus_sym c a) in T2. lra.
Qed.

(** An edge from a point of the first diagram or the diagonal to one of the second
    one, then an edge from there. *)
Definition compose (e1 e2 : edge) : list edge :=
  match e1, e2 with
  | Pair p _, Pair _ r => [Pair p r]
  | Pair p _, LeftOnly _ => [LeftOnly p]
  | RightOnly _, Pair _ r => [RightOnly r]
  | _, _ => []
  end.
Definition ccost (l : list edge) : R := match l with [] => 0%R | e :: _ => ecost e end.
Lemma compose_cost e1 e2 : (exists q, rights [e1] = [q] /\ lefts [e2] = [q]) ->
  (0 <= ccost (compose e1 e2) <= ecost e1 + ecost e2)%R.
Proof.
  intros [q [H1 H2]].
  pose proof (ecost_nonneg e1) as N1. pose proof (ecost_nonneg e2) as N2.
  destruct e1 as [p q1|p|q1], e2 as [q2 r|q2|r]; cbn in H1, H2; try discriminate;
    injection H1 as ->; injection H2 as ->; cbn [compose ccost ecost] in *.
  - split; [apply cheb_nonneg|apply cheb_triangle].
  - split; [pose proof (Rabs_pos (life p)); lra|apply life_cheb].
  - split; [pose proof (Rabs_pos (life r)); lra|]. rewrite cheb_sym. pose proof (life_cheb r q). lra.
  - lra.
Qed.
Lemma lefts_cons e M : lefts (e :: M) = lefts [e] ++ lefts M. Proof. unfold lefts. cbn. now rewrite app_nil_r. Qed.
Lemma rights_cons e M : rights (e :: M) = rights [e] ++ rights M. Proof. unfold rights. cbn. now rewrite app_nil_r. Qed.
Lemma lefts_In q M : In q (lefts M) -> exists A e B, M = A ++ e :: B /\ lefts [e] = [q].
Proof.
  intros H. apply in_flat_map in H. destruct H as [e [He Hq]]. apply in_split in He. destruct He as [A [B ->]].
  exists A, e, B. split; [reflexivity|]. destruct e as [p r|p|r]; cbn in *; intuition congruence.
Qed.
Lemma compose_lefts e1 e2 q : rights [e1] = [q] -> lefts [e2] = [q] -> lefts (compose e1 e2) = lefts [e1].
Proof. destruct e1 as [p q1|p|q1], e2 as [q2 r|q2|r]; cbn; intros; try discriminate; reflexivity. Qed.
Lemma compose_rights e1 e2 q : rights [e1] = [q] -> lefts [e2] = [q] -> rights (compose e1 e2) = rights [e2].
Proof. destruct e1 as [p q1|p|q1], e2 as [q2 r|q2|r]; cbn; intros; try discriminate; reflexivity. Qed.

Lemma lefts_perm M M' : Permutation M M' -> Permutation (lefts M) (lefts M').
Proof. apply Permutation_flat_map. Qed.
Lemma rights_perm M M' : Permutation M M' -> Permutation (rights M) (rights M').
Proof. apply Permutation_flat_map. Qed.

(** The composite matching, with a list of triples of costs: each edge of the
    composite costs at most the sum of the edges it comes from; the costs of each
    matching are those of the list up to zeros. *)
Definition padded (l m : list R) : Prop := exists k, Permutation l (m ++ repeat 0%R k).
Lemma padded_norm p l m : pos_p p -> padded l m -> norm p l = norm p m.
Proof.
  intros Hp [k H]. rewrite (norm_perm p _ _ H). apply norm_app_zero; [exact Hp|]. intros x Hx. now apply repeat_spec in Hx.
Qed.
Lemma padded_cons x l m : padded l m -> padded (x :: l) (x :: m).
Proof. intros [k H]. exists k. cbn. now apply perm_skip. Qed.
Lemma padded_zero l m : padded l m -> padded (0%R :: l) m.
Proof.
  intros [k H]. exists (S k). cbn [repeat]. eapply Permutation_trans; [apply perm_skip; exact H|]. apply Permutation_middle.
Qed.
Lemma padded_perm l m m' : Permutation m m' -> padded l m -> padded l m'.
Proof. intros P [k H]. exists k. eapply Permutation_trans; [exact H|]. now apply Permutation_app_tail. Qed.
Lemma padded_refl l : padded l l. Proof. exists 0%nat. cbn. now rewrite app_nil_r. Qed.
Lemma padded_zeros l : (forall x, In x l -> x = 0%R) -> padded l [].
Proof. intros H. exists (length l). cbn. induction l as [|a l IH]; [constructor|]. cbn. rewrite (H a) by now left. apply perm_skip, IH. intros; apply H; now right. Qed.

Lemma composite M1 : forall M2, Permutation (rights M1) (lefts M2) ->
  exists M (T : list (R * (R * R))),
    Permutation (lefts M) (lefts M1) /\ Permutation (rights M) (rights M2) /\
    (forall t, In t T -> (0 <= fst t <= fst (snd t) + snd (snd t))%R) /\
    padded (map fst T) (map ecost M) /\ padded (map (fun t => fst (snd t)) T) (map ecost M1) /\
    padded (map (fun t => snd (snd t)) T) (map ecost M2).
Proof.
  induction M1 as [|e1 M1 IH]; intros M2 HP.
  - assert (HN : forall e, In e M2 -> exists r, e = RightOnly r).
    { intros e He. assert (HL : incl (lefts [e]) (lefts M2)) by (intros p Hp; apply in_flat_map; exists e; split; [exact He|]; cbn in Hp; now rewrite app_nil_r in Hp).
      cbn in HP. apply Permutation_nil in HP. rewrite HP in HL. destruct e as [p r|p|r]; [destruct (HL p); now left|destruct (HL p); now left|eauto]. }
    exists M2, (map (fun e => (ecost e, (0%R, ecost e))) M2). repeat split.
    + cbn in HP. apply Permutation_nil in HP. rewrite HP. apply perm_nil.
    + apply Permutation_refl.
    + apply in_map_iff in H. destruct H as [e [<- _]]. apply ecost_nonneg.
    + apply in_map_iff in H. destruct H as [e [<- _]]. cbn. lra.
    + rewrite map_map. apply padded_refl.
    + apply padded_zeros. intros x Hx. rewrite map_map in Hx. apply in_map_iff in Hx. now destruct Hx as [e [<- _]].
    + rewrite map_map. apply padded_refl.
  - rewrite rights_cons in HP. destruct (rights [e1]) as [|q [|q' l]] eqn:Er.
    + destruct (IH M2 HP) as [M [T [H1 [H2 [H3 [H4 [H5 H6]]]]]]].
      assert (Ee : exists p, e1 = LeftOnly p) by (destruct e1; try discriminate; eauto). destruct Ee as [p ->].
      exists (LeftOnly p :: M), ((ecost (LeftOnly p), (ecost (LeftOnly p), 0%R)) :: T). repeat split.
      * now apply perm_skip.
      * exact H2.
      * destruct H as [<-|H]; [apply ecost_nonneg|now apply H3].
      * destruct H as [<-|H]; [cbn [fst snd]; lra|now apply H3].
      * cbn [map fst]. now apply padded_cons.
      * cbn [map fst snd]. now apply padded_cons.
      * cbn [map snd]. now apply padded_zero.
    + assert (Hq : In q (lefts M2)) by (eapply Permutation_in; [exact HP|now left]).
      apply lefts_In in Hq. destruct Hq as [A [e2 [B [-> El]]]].
      assert (PM : Permutation (A ++ e2 :: B) (e2 :: A ++ B)) by (symmetry; apply Permutation_middle).
      assert (HP' : Permutation (rights M1) (lefts (A ++ B))).
      { apply (Permutation_cons_inv (a := q)). eapply Permutation_trans; [exact HP|]. eapply Permutation_trans; [apply lefts_perm; exact PM|].
        rewrite lefts_cons, El. apply Permutation_refl. }
      destruct (IH _ HP') as [M [T [H1 [H2 [H3 [H4 [H5 H6]]]]]]].
      exists (compose e1 e2 ++ M), ((ccost (compose e1 e2), (ecost e1, ecost e2)) :: T).
      assert (HC : (0 <= ccost (compose e1 e2) <= ecost e1 + ecost e2)%R) by (apply compose_cost; eauto).
      repeat split.
      * rewrite lefts_app, (compose_lefts e1 e2 q Er El), (lefts_cons e1 M1). now apply Permutation_app_head.
      * rewrite rights_app, (compose_rights e1 e2 q Er El). eapply Permutation_trans; [apply Permutation_app_head; exact H2|].
        rewrite <- rights_cons. apply rights_perm. now symmetry.
      * destruct H as [<-|H]; [cbn [fst snd]; lra|now apply H3].
      * destruct H as [<-|H]; [cbn [fst snd]; lra|now apply H3].
      * cbn [map fst]. destruct (compose e1 e2) as [|e l] eqn:Ec; [now apply padded_zero|].
        assert (l = []) as -> by (destruct e1, e2; cbn in Ec; congruence). cbn. now apply padded_cons.
      * cbn [map fst snd]. now apply padded_cons.
      * cbn [map snd]. eapply padded_perm; [apply Permutation_map; symmetry; exact PM|]. cbn [map]. now apply padded_cons.
    + destruct e1; discriminate.
Qed.

(** *** the three laws *)

(** Triangle inequality of the cost of optimal matchings, for every exponent. *)
Theorem matching_distance_triangle p x y z a b c : ge1 p ->
  is_matching_distance p x y a -> is_matching_distance p y z b -> is_matching_distance p x z c ->
  (c <= a + b)%R.
Proof.
  intros Hp [[M1 [[L1 R1] C1]] _] [[M2 [[L2 R2] C2]] _] [_ HL]. pose proof (ge1_pos p Hp) as Hpp.
  destruct (composite M1 M2) as [M [T [H1 [H2 [H3 [H4 [H5 H6]]]]]]].
  { eapply Permutation_trans; [exact R1|now symmetry]. }
  apply (matching_cost_iff p _ _ Hpp) in C1, C2. subst a b.
  apply (Rle_trans _ (norm p (map ecost M))).
  - apply (HL M); [|now apply matching_cost_iff]. split; eapply Permutation_trans; eassumption.
  - rewrite <- (padded_norm p _ _ Hpp H4), <- (padded_norm p _ _ Hpp H5), <- (padded_norm p _ _ Hpp H6).
    apply norm_map_triangle; [exact Hp|]. intros t Ht. specialize (H3 t Ht). lra.
Qed.

Definition flip (e : edge) : edge :=
  match e with Pair p q => Pair q p | LeftOnly p => RightOnly p | RightOnly q => LeftOnly q end.
Lemma lefts_flip M : lefts (map flip M) = rights M.
Proof. induction M as [|e M IH]; [reflexivity|]. cbn [map]. rewrite lefts_cons, rights_cons, IH. now destruct e. Qed.
Lemma rights_flip M : rights (map flip M) = lefts M.
Proof. induction M as [|e M IH]; [reflexivity|]. cbn [map]. rewrite lefts_cons, rights_cons, IH. now destruct e. Qed.
Lemma ecost_flip e : ecost (flip e) = ecost e.
Proof. destruct e; cbn [flip ecost]; [apply cheb_sym|reflexivity|reflexivity]. Qed.
Lemma matching_flip x y M : is_matching x y M -> is_matching y x (map flip M).
Proof. intros [H1 H2]. split; [now rewrite lefts_flip|now rewrite rights_flip]. Qed.
Lemma cost_flip p M r : pos_p p -> matching_cost p M r -> matching_cost p (map flip M) r.
Proof.
  intros Hp H. apply (matching_cost_iff p _ _ Hp) in H. apply matching_cost_iff; [exact Hp|]. rewrite map_map.
  rewrite (map_ext _ ecost) by apply ecost_flip. exact H.
Qed.
Theorem matching_distance_symmetric p x y a : ge1 p ->
  is_matching_distance p x y a -> is_matching_distance p y x a.
Proof.
  intros Hp [[M [HM HC]] HL]. apply ge1_pos in Hp. split.
  - exists (map flip M). split; [now apply matching_flip|now apply cost_flip].
  - intros M' r' HM' HC'. apply (HL (map flip M')); [now apply matching_flip|now apply cost_flip].
Qed.

Lemma cheb_zero p q : cheb (real_pt p) (real_pt q) = 0%R -> p = q.
Proof.
  unfold cheb, real_pt. cbn [fst snd]. intros H.
  pose proof (Rmax_l (Rabs (qr (fst p) - qr (fst q))) (Rabs (qr (snd p) - qr (snd q)))) as M1.
  pose proof (Rmax_r (Rabs (qr (fst p) - qr (fst q))) (Rabs (qr (snd p) - qr (snd q)))) as M2. rewrite H in *.
  pose proof (Rabs_pos (qr (fst p) - qr (fst q))). pose proof (Rabs_pos (qr (snd p) - qr (snd q))).
  destruct p as [a b], q as [c d]. cbn [fst snd] in *. f_equal; apply qr_inj.
  - destruct (Req_dec (qr a - qr c) 0) as [E|E]; [lra|]. apply Rabs_pos_lt in E. lra.
  - destruct (Req_dec (qr b - qr d) 0) as [E|E]; [lra|]. apply Rabs_pos_lt in E. lra.
Qed.
Lemma cheb_refl p : cheb p p = 0%R.
Proof. unfold cheb. rewrite !Rminus_diag_eq by reflexivity. rewrite Rabs_R0. apply Rmax_left. lra. Qed.
Lemma life_zero p : (Rabs (life p) / 2)%R = 0%R -> fst p = snd p.
Proof.
  intros H. apply qr_inj. unfold life in H. rewrite qr_sub in H.
  destruct (Req_dec (qr (snd p) - qr (fst p)) 0) as [E|E]; [lra|]. apply Rabs_pos_lt in E. lra.
Qed.
Lemma off_app x y : off_diagonal (x ++ y) = off_diagonal x ++ off_diagonal y.
Proof. apply filter_app. Qed.
Lemma Permutation_off x y : Permutation x y -> Permutation (off_diagonal x) (off_diagonal y).
Proof.
  unfold off_diagonal. induction 1 as [|a x y H IH|a b x|x y z H1 IH1 H2 IH2]; cbn.
  - apply perm_nil.
  - destruct (negb _); [now apply perm_skip|exact IH].
  - destruct (negb (Qceqb (fst a) (snd a))), (negb (Qceqb (fst b) (snd b))); try apply Permutation_refl. apply perm_swap.
  - eapply Permutation_trans; eassumption.
Qed.
Lemma diag_split x : Permutation x (off_diagonal x ++ filter (fun p => Qceqb (fst p) (snd p)) x).
Proof.
  unfold off_diagonal. induction x as [|p x IH]; cbn; [apply perm_nil|]. destruct (Qceqb (fst p) (snd p)); cbn [negb].
  - eapply Permutation_trans; [apply perm_skip; exact IH|]. apply Permutation_middle.
  - cbn. now apply perm_skip.
Qed.

(** The distance is zero exactly when the diagrams have the same off-diagonal
    points with multiplicities. *)
Theorem matching_distance_zero p x y a : ge1 p -> is_matching_distance p x y a ->
  a = 0%R <-> same_off_diagonal x y.
Proof.
  intros Hp [[M [[HL HR] HC]] HB]. apply ge1_pos in Hp. split.
  - intros ->. apply (matching_cost_iff p _ _ Hp) in HC. symmetry in HC. pose proof (norm_eq0 p _ Hp HC) as H0. clear HC HB.
    unfold same_off_diagonal. eapply Permutation_trans; [apply Permutation_off; symmetry; exact HL|].
    eapply Permutation_trans; [|apply Permutation_off; exact HR]. clear HL HR.
    assert (E : off_diagonal (lefts M) = off_diagonal (rights M)); [|rewrite E; apply Permutation_refl].
    induction M as [|e M IH]; [reflexivity|]. rewrite lefts_cons, rights_cons, !off_app, IH by (intros v Hv; apply H0; now right).
    f_equal. assert (E0 : ecost e = 0%R) by (apply H0; now left). destruct e as [u v|u|u]; cbn [ecost] in E0.
    + apply cheb_zero in E0. now subst v.
    + apply life_zero in E0. cbn. destruct (Qceqb_spec (fst u) (snd u)); [reflexivity|contradiction].
    + apply life_zero in E0. cbn. destruct (Qceqb_spec (fst u) (snd u)); [reflexivity|contradiction].
  - intros HS. unfold same_off_diagonal in HS.
    set (dg := filter (fun p => Qceqb (fst p) (snd p))) in *.
    set (M0 := map (fun u => Pair u u) (off_diagonal x) ++ map LeftOnly (dg x) ++ map RightOnly (dg y)).
    assert (LP : forall l, lefts (map (fun u => Pair u u) l) = l) by (induction l as [|u l IH]; [reflexivity|]; cbn [map]; rewrite lefts_cons, IH; reflexivity).
    assert (RP : forall l, rights (map (fun u => Pair u u) l) = l) by (induction l as [|u l IH]; [reflexivity|]; cbn [map]; rewrite rights_cons, IH; reflexivity).
    assert (HM0 : is_matching x y M0).
    { unfold M0. split.
      - rewrite !lefts_app, LP, lefts_LeftOnly, lefts_RightOnly, app_nil_r. symmetry. apply diag_split.
      - rewrite !rights_app, RP, rights_LeftOnly, rights_RightOnly. cbn [app]. eapply Permutation_trans; [apply Permutation_app_tail; exact HS|].
        symmetry. apply diag_split. }
    assert (HC0 : matching_cost p M0 0).
    { apply matching_cost_iff; [exact Hp|]. symmetry. apply norm_zero; [exact Hp|]. intros v Hv. apply in_map_iff in Hv. destruct Hv as [e [<- He]].
      unfold M0 in He. assert (HD : forall u l, In u (dg l) -> (Rabs (life u) / 2)%R = 0%R).
      { intros u l Hu. unfold dg in Hu. apply filter_In in Hu. destruct Hu as [_ Hu]. destruct (Qceqb_spec (fst u) (snd u)) as [E|]; [|discriminate].
        unfold life. rewrite qr_sub, E, Rminus_diag_eq by reflexivity. rewrite Rabs_R0. lra. }
      apply in_app_or in He. destruct He as [He|He]; [|apply in_app_or in He; destruct He as [He|He]]; apply in_map_iff in He; destruct He as [u [<- Hu]]; cbn [ecost].
      - apply cheb_refl.
      - eapply HD; exact Hu.
      - eapply HD; exact Hu. }
    pose proof (HB M0 0%R HM0 HC0). apply (matching_cost_iff p _ _ Hp) in HC. pose proof (norm_nonneg p (map ecost M)). lra.
Qed.

(** *** exponents *)
Lemma rpow_decr x a b : (0 <= x <= 1)%R -> (0 < a <= b)%R -> (rpow x b <= rpow x a)%R.
Proof.
  intros [[H0| <-] H1] [Ha Hb]; [|rewrite !rpow_0 by lra; lra].
  rewrite !rpow_pos by assumption. unfold Rpower.
  assert (L : (ln x <= 0)%R) by (destruct H1 as [H1| ->]; [left; rewrite <- ln_1; now apply ln_increasing|rewrite ln_1; lra]).
  assert (b * ln x <= a * ln x)%R by nra. destruct H as [H|H]; [left; now apply exp_increasing|rewrite H; lra].
Qed.
Definition expo_le (a b : expo) : Prop :=
  match a, b with _, Pinf => True | Pinf, Pfin _ => False | Pfin a, Pfin b => (a <= b)%R end.
Lemma norm_decr a b v : ge1 a -> expo_le a b -> (norm b v <= norm a v)%R.
Proof.
  intros Ha Hab. destruct b as [b|].
  - destruct a as [a|]; [|destruct Hab]. cbn in Ha, Hab.
    destruct (Req_dec (norm (Pfin a) v) 0) as [E|E].
    + rewrite E. assert (forall x, In x v -> x = 0%R) by (apply (norm_eq0 (Pfin a)); [cbn; lra|exact E]). rewrite norm_zero; [lra|cbn; lra|assumption].
    + pose proof (norm_nonneg (Pfin a) v) as N0. set (S := norm (Pfin a) v) in *. assert (HS : (0 < S)%R) by lra.
      assert (HSa : rsum (map (fun x => rpow (Rabs x) a) v) = rpow S a) by (symmetry; apply norm_pow; lra).
      cbn [norm]. rewrite <- (rpow_inv S b) by lra. apply rpow_le; [|apply Rdiv_lt_0_compat; lra].
      split; [apply rsum_nonneg, abs_pow_nonneg|].
      assert (HX : forall x, In x v -> (rpow (Rabs x) b <= rpow S b / rpow S a * rpow (Rabs x) a)%R).
      { intros x Hx. assert (Hle : (Rabs x <= S)%R) by (apply (norm_ge (Pfin a)); [cbn; lra|exact Hx]).
        pose proof (rpow_gt0 S a HS) as Ga. pose proof (rpow_gt0 S b HS) as Gb.
        assert (D : (rpow (Rabs x / S) b <= rpow (Rabs x / S) a)%R).
        { apply rpow_decr; [|lra]. split; [apply Rmult_le_pos; [apply Rabs_pos|left; now apply Rinv_0_lt_compat]|]. apply (Rmult_le_reg_r S); [exact HS|]. field_simplify; lra. }
        rewrite !rpow_div in D by (try apply Rabs_pos; lra).
        apply (Rmult_le_compat_r (rpow S b)) in D; [|lra].
        replace (rpow (Rabs x) b / rpow S b * rpow S b)%R with (rpow (Rabs x) b) in D by (field; lra).
        replace (rpow S b / rpow S a * rpow (Rabs x) a)%R with (rpow (Rabs x) a / rpow S a * rpow S b)%R by (field; lra). exact D. }
      apply (Rle_trans _ (rsum (map (fun x => rpow S b / rpow S a * rpow (Rabs x) a)%R v))).
      * clear - HX. clearbody S. induction v as [|x v IH]; cbn [map]; [cbn; lra|]. rewrite !rsum_cons.
        pose proof (HX x (or_introl eq_refl)). assert (forall x, In x v -> (rpow (Rabs x) b <= rpow S b / rpow S a * rpow (Rabs x) a)%R) by (intros; apply HX; now right).
        specialize (IH H0). lra.
      * rewrite (rsum_k (rpow S b / rpow S a) (fun x => rpow (Rabs x) a)), HSa. pose proof (rpow_gt0 S a HS). right. field. lra.
  - cbn [norm]. apply rmax_le; [apply norm_nonneg|]. intros x Hx. apply in_map_iff in Hx. destruct Hx as [u [<- Hu]]. apply norm_ge; [now apply ge1_pos|exact Hu].
Qed.
Theorem matching_distance_exponent a b x y r s : ge1 a -> ge1 b -> expo_le a b ->
  is_matching_distance a x y r -> is_matching_distance b x y s -> (s <= r)%R.
Proof.
  intros Ha Hb Hab [[M [HM HC]] _] [_ HL]. pose proof (ge1_pos a Ha) as Pa. pose proof (ge1_pos b Hb) as Pb.
  apply (matching_cost_iff a _ _ Pa) in HC. subst r. apply (Rle_trans _ (norm b (map ecost M))); [|now apply norm_decr].
  apply (HL M); [exact HM|now apply matching_cost_iff].
Qed.

(** ** PairwiseDistance *)
Definition algorithm (E : externals) (m : metric) : list (Qc * Qc) -> list (Qc * Qc) -> R :=
  match m with Bottleneck => x_bottleneck E | Wasserstein p => x_wasserstein E p | _ => fun _ _ => 0%R end.

Lemma dims_unique X l l' : dimensions_of X l -> dimensions_of X l' -> l' = l.
Proof. intros [I1 K1] [I2 K2]. apply increasing_unique; try assumption. intros q. now rewrite K1, K2. Qed.
Lemma off_off x : off_diagonal (off_diagonal x) = off_diagonal x.
Proof.
  unfold off_diagonal. induction x as [|p x IH]; [reflexivity|]. cbn [filter]. destruct (negb (Qceqb (fst p) (snd p))) eqn:E; [|exact IH].
  cbn [filter]. rewrite E. now f_equal.
Qed.

(** The bottleneck and Wasserstein distances returned by fit_transform, computed by
    an algorithm of relative accuracy delta: they vanish exactly between samples
    with the same off-diagonal points in that dimension, and satisfy symmetry and
    the triangle inequality up to the factor 1 + delta. *)
Theorem point_distance_near_metric E m delta n_bins n_jobs X :
  ~ vectorised m -> ge1 (exponent m) -> 1 <= n_bins -> trainable X -> 1 <= n_jobs ->
  (0 <= delta)%R ->
  approximates delta (exponent m)
    (match m with Bottleneck => x_bottleneck E | Wasserstein p => x_wasserstein E p | _ => fun _ _ => 0%R end) ->
  exists dims D, dimensions_of X dims /\ pairwise_distance E m n_bins n_jobs X X = Ok D /\
    exists d : Z -> Z -> Z -> R, forall c q, Znth dims c = Some q ->
      (forall i j, 0 <= i < zlen X -> 0 <= j < zlen X -> value3 D i j c = Some (Some (d c i j)) /\ (0 <= d c i j)%R) /\
      (forall i j x y, Znth X i = Some x -> Znth X j = Some y ->
         d c i j = 0%R <-> same_off_diagonal (points_of q x) (points_of q y)) /\
      (forall i j, 0 <= i < zlen X -> 0 <= j < zlen X -> (d c i j <= (1 + delta) * d c j i)%R) /\
      (forall i j k, 0 <= i < zlen X -> 0 <= j < zlen X -> 0 <= k < zlen X ->
         (d c i k <= (1 + delta) * (d c i j + d c j k))%R).
Proof.
  intros HV Hp Hn HT HJ Hd HA.
  destruct (pairwise_point_distance_spec E m n_bins X HV Hn HT) as [dims [HDm H]].
  exists dims. eexists. split; [exact HDm|]. split; [apply H; [exact HJ|now apply trainable_transformable]|].
  exists (fun c i j => match Znth dims c, Znth X i, Znth X j with
                       | Some q, Some x, Some y => algorithm E m (off_diagonal (points_of q x)) (off_diagonal (points_of q y))
                       | _, _, _ => 0%R end).
  intros c q Hc. rewrite Hc.
  assert (HA' : forall q x y, exists r, is_matching_distance (exponent m) (off_diagonal (points_of q x)) (off_diagonal (points_of q y)) r /\
            (0 <= r)%R /\ (r <= algorithm E m (off_diagonal (points_of q x)) (off_diagonal (points_of q y)) <= (1 + delta) * r)%R).
  { intros q' x y. destruct (matching_distance_exists (exponent m) (off_diagonal (points_of q' x)) (off_diagonal (points_of q' y)) Hp) as [r Hr].
    exists r. split; [exact Hr|]. split; [|apply HA; exact Hr]. destruct Hr as [[M [_ HC]] _]. apply (matching_cost_iff _ _ _ (ge1_pos _ Hp)) in HC. subst r. apply norm_nonneg. }
  repeat split.
  - destruct (Znth_ex X i H0) as [x Ex], (Znth_ex X j H1) as [y Ey]. rewrite Ex, Ey.
    unfold value3, entry. rewrite Znth_map, Ex. cbn [option_map]. rewrite Znth_map, Ey. cbn [option_map]. rewrite Znth_map, Hc. cbn [option_map].
    unfold algorithm. now destruct m.
  - destruct (Znth_ex X i H0) as [x Ex], (Znth_ex X j H1) as [y Ey]. rewrite Ex, Ey. destruct (HA' q x y) as [r [_ [Hr0 Hr]]]. lra.
  - rewrite H0, H1. intros H2. destruct (HA' q x y) as [r [HM [Hr0 Hr]]]. assert (r = 0%R) by lra.
    apply (matching_distance_zero _ _ _ _ Hp HM) in H3. unfold same_off_diagonal in *. now rewrite !off_off in H3.
  - rewrite H0, H1. intros H2. destruct (HA' q x y) as [r [HM [Hr0 Hr]]]. assert (r = 0%R).
    { apply (matching_distance_zero _ _ _ _ Hp HM). unfold same_off_diagonal in *. now rewrite !off_off. }
    subst r. lra.
  - intros i j Hi Hj. destruct (Znth_ex X i Hi) as [x Ex], (Znth_ex X j Hj) as [y Ey]. rewrite Ex, Ey.
    destruct (HA' q x y) as [r [HM [Hr0 Hr]]], (HA' q y x) as [s [HM' [Hs0 Hs]]].
    apply (matching_distance_symmetric _ _ _ _ Hp) in HM'.
    assert (r <= s)%R by (destruct HM as [_ HL], HM' as [[M [HM' HC]] _]; now apply (HL M)). nra.
  - intros i j k Hi Hj Hk. destruct (Znth_ex X i Hi) as [x Ex], (Znth_ex X j Hj) as [y Ey], (Znth_ex X k Hk) as [z Ez]. rewrite Ex, Ey, Ez.
    destruct (HA' q x y) as [r [HM [Hr0 Hr]]], (HA' q y z) as [s [HM' [Hs0 Hs]]], (HA' q x z) as [t [HM2 [Ht0 Ht]]].
    pose proof (matching_distance_triangle _ _ _ _ _ _ _ Hp HM HM' HM2). nra.
Qed.

(** With an exact algorithm (delta = 0) they are pseudo-metrics in every homology
    dimension, and so are their combinations of any order >= 1. *)
Theorem point_distance_pseudo_metric E m n_bins n_jobs X :
  ~ vectorised m -> ge1 (exponent m) -> 1 <= n_bins -> trainable X -> 1 <= n_jobs ->
  approximates 0 (exponent m)
    (match m with Bottleneck => x_bottleneck E | Wasserstein p => x_wasserstein E p | _ => fun _ _ => 0%R end) ->
  (exists dims D, dimensions_of X dims /\ pairwise_distance E m n_bins n_jobs X X = Ok D /\
    forall c, 0 <= c < zlen dims -> pseudo_metric (zlen X) (fun i j => value3 D i j c)) /\
  forall order, ge1 order ->
    exists D, pairwise_distance_order E m order n_bins n_jobs X X = Ok D /\ pseudo_metric (zlen X) (entry D).
Proof.
  intros HV Hp Hn HT HJ HA.
  destruct (point_distance_near_metric E m 0 n_bins n_jobs X HV Hp Hn HT HJ ltac:(lra) HA) as [dims [D [HDm [HD [d H]]]]].
  split.
  - exists dims, D. split; [exact HDm|]. split; [exact HD|]. intros c Hc. destruct (Znth_ex dims c Hc) as [q Eq].
    destruct (H c q Eq) as [H1 [H2 [H3 H4]]]. exists (d c). repeat split.
    + intros i j Hi Hj. now apply H1.
    + intros i Hi. destruct (Znth_ex X i Hi) as [x Ex]. apply (H2 i i x x Ex Ex). apply Permutation_refl.
    + pose proof (H3 i j H0 H5). pose proof (H3 j i H5 H0). lra.
    + now apply H1.
    + intros i j k Hi Hj Hk. pose proof (H4 i j k Hi Hj Hk). lra.
  - intros order Ho. unfold pairwise_distance_order.
    destruct (pairwise_point_distance_spec E m n_bins X HV Hn HT) as [dims' [HDm' Hs]].
    rewrite (Hs n_jobs X HJ (trainable_transformable X HT)) in HD |- *.
    assert (dims' = dims) as -> by (now apply (dims_unique X)).
    injection HD as HD. cbn [bind]. eexists. split; [reflexivity|].
    set (g := fun q x y => algorithm E m (off_diagonal (points_of q x)) (off_diagonal (points_of q y))).
    assert (Hg : forall c q i j x y, Znth dims c = Some q -> Znth X i = Some x -> Znth X j = Some y -> d c i j = g q x y).
    { intros c q i j x y Hc Hi Hj. destruct (H c q Hc) as [H1 _].
      destruct (H1 i j) as [V _]; [now apply Znth_Some_lt in Hi|now apply Znth_Some_lt in Hj|].
      rewrite <- HD in V. unfold value3, entry in V. rewrite Znth_map, Hi in V. cbn [option_map] in V. rewrite Znth_map, Hj in V. cbn [option_map] in V.
      rewrite Znth_map, Hc in V. cbn [option_map] in V. injection V as V. rewrite <- V. unfold g, algorithm. now destruct m. }
    assert (Hg' : forall q x, In q dims -> In x X -> exists c i, Znth dims c = Some q /\ Znth X i = Some x /\ 0 <= i < zlen X).
    { intros q x Hq Hx. apply In_Znth in Hq. destruct Hq as [c [_ Hc]]. apply In_Znth in Hx. destruct Hx as [i [Hi Hx]]. eauto 6. }
    apply (pseudo_metric_from X _ (fun x y => norm order (map (fun q => g q x y) dims))).
    + intros i j x y Hi Hj. unfold entry. rewrite !Znth_map, Hi. cbn [option_map]. rewrite !Znth_map, Hj. cbn [option_map]. f_equal.
      rewrite <- combine_order_map. f_equal. apply map_ext. intros q. unfold g, algorithm. now destruct m.
    + intros x Hx. apply norm_zero; [now apply (ge1_pos order)|]. intros v Hv. apply in_map_iff in Hv. destruct Hv as [q [<- Hq]].
      destruct (Hg' q x Hq Hx) as [c [i [Hc [Hi Ri]]]]. rewrite <- (Hg c q i i x x Hc Hi Hi). destruct (H c q Hc) as [_ [H2 _]].
      apply (H2 i i x x Hi Hi). apply Permutation_refl.
    + intros x y Hx Hy. split; [|apply norm_nonneg]. f_equal. apply map_ext_in. intros q Hq.
      destruct (Hg' q x Hq Hx) as [c [i [Hc [Hi Ri]]]]. apply In_Znth in Hy. destruct Hy as [j [Rj Hj]].
      rewrite <- (Hg c q i j x y Hc Hi Hj), <- (Hg c q j i y x Hc Hj Hi). destruct (H c q Hc) as [_ [_ [H3 _]]].
      pose proof (H3 i j Ri Rj). pose proof (H3 j i Rj Ri). lra.
    + intros x y z Hx Hy Hz. apply norm_map_triangle; [exact Ho|]. intros q Hq.
      destruct (Hg' q x Hq Hx) as [c [i [Hc [Hi Ri]]]]. apply In_Znth in Hy, Hz. destruct Hy as [j [Rj Hj]], Hz as [k [Rk Hk]].
      rewrite <- (Hg c q i j x y Hc Hi Hj), <- (Hg c q j k y z Hc Hj Hk), <- (Hg c q i k x z Hc Hi Hk).
      destruct (H c q Hc) as [H1 [_ [_ H4]]]. pose proof (H4 i j k Ri Rj Rk). pose proof (proj2 (H1 i k Ri Rk)). lra.
Qed.

(** Bottleneck distances are at most Wasserstein ones, and Wasserstein distances
    decrease with the exponent, up to the accuracy of the algorithm. *)
Theorem point_distance_exponent E m m' delta n_bins n_jobs X Y :
  ~ vectorised m -> ~ vectorised m' -> ge1 (exponent m) -> ge1 (exponent m') ->
  match exponent m, exponent m' with
  | Pfin a, Pfin b => (a <= b)%R | _, Pinf => True | Pinf, Pfin _ => False
  end ->
  1 <= n_bins -> trainable X -> 1 <= n_jobs -> transformable (map pq (hd [] X)) Y ->
  approximates delta (exponent m)
    (match m with Bottleneck => x_bottleneck E | Wasserstein p => x_wasserstein E p | _ => fun _ _ => 0%R end) ->
  approximates delta (exponent m')
    (match m' with Bottleneck => x_bottleneck E | Wasserstein p => x_wasserstein E p | _ => fun _ _ => 0%R end) ->
  (0 <= delta)%R ->
  exists D D', pairwise_distance E m n_bins n_jobs X Y = Ok D /\ pairwise_distance E m' n_bins n_jobs X Y = Ok D' /\
    Forall2 (Forall2 (Forall2 (fun a b => exists r s, a = Some r /\ b = Some s /\ (0 <= s <= (1 + delta) * r)%R))) D D'.
Proof.
  intros HV HV' Hp Hp' Hle Hn HT HJ HY HA HA' Hd.
  destruct (pairwise_point_distance_spec E m n_bins X HV Hn HT) as [dims [HDm H]].
  destruct (pairwise_point_distance_spec E m' n_bins X HV' Hn HT) as [dims' [HDm' H']].
  assert (dims' = dims) as -> by (now apply (dims_unique X)).
  rewrite (H n_jobs Y HJ HY), (H' n_jobs Y HJ HY). do 2 eexists. split; [reflexivity|]. split; [reflexivity|].
  apply Forall2_map_left', Forall2_map_right, Forall2_same. intros y _.
  apply Forall2_map_left', Forall2_map_right, Forall2_same. intros x _.
  apply Forall2_map_left', Forall2_map_right, Forall2_same. intros q _.
  do 2 eexists. split; [reflexivity|]. split; [reflexivity|].
  set (a := off_diagonal (points_of q y)). set (b := off_diagonal (points_of q x)).
  destruct (matching_distance_exists (exponent m) a b Hp) as [r Hr].
  destruct (matching_distance_exists (exponent m') a b Hp') as [s Hs].
  pose proof (HA _ _ _ Hr) as Ar. pose proof (HA' _ _ _ Hs) as As.
  assert (Hsr : (s <= r)%R) by (apply (matching_distance_exponent (exponent m) (exponent m') a b r s); assumption).
  assert (H0 : (0 <= s)%R).
  { destruct Hs as [[M [_ HC]] _]. apply (matching_cost_iff _ _ _ (ge1_pos _ Hp')) in HC. subst s. apply norm_nonneg. }
  destruct m, m'; cbn in HV, HV'; try tauto; nra.
Qed.

(** The hypotheses hold of the diagrams and algorithms of [stab_example]; two
    different diagrams at distance zero, and two at positive distance. *)
Example match_example :
  approximates 0 Pinf (x_bottleneck stab_E) /\ approximates 0 (Pfin 2) (x_wasserstein stab_E 2) /\
  trainable (of_raw ex_raw0) /\
  is_matching_distance Pinf [(qz 0, qz 3); (qz 1, qz 1)] [(qz 0, qz 3)] 0 /\
  exists r, is_matching_distance Pinf [(qz 0, qz 3)] [(qz 1, qz 3)] r /\ (0 < r)%R.
Proof.
  destruct stab_example as [_ [_ [H1 [H2 [H3 _]]]]]. split; [exact H1|]. split; [exact H2|]. split; [exact H3|]. split.
  - destruct (matching_distance_exists Pinf [(qz 0, qz 3); (qz 1, qz 1)] [(qz 0, qz 3)] I) as [r Hr].
    assert (r = 0%R) as <-; [|exact Hr]. apply (matching_distance_zero Pinf _ _ _ I Hr). apply Permutation_refl.
  - destruct (matching_distance_exists Pinf [(qz 0, qz 3)] [(qz 1, qz 3)] I) as [r Hr]. exists r. split; [exact Hr|].
    assert (N : (0 <= r)%R) by (destruct Hr as [[M [_ HC]] _]; apply (matching_cost_iff Pinf _ _ I) in HC; subst r; apply norm_nonneg).
    destruct N as [N|N]; [exact N|]. symmetry in N. apply (matching_distance_zero Pinf _ _ _ I Hr) in N.
    apply Permutation_length_1 in N. discriminate.
Qed.

Print Assumptions matching_distance_triangle.
Print Assumptions matching_distance_symmetric.
Print Assumptions matching_distance_zero.
Print Assumptions matching_distance_exponent.
Print Assumptions point_distance_near_metric.
Print Assumptions point_distance_pseudo_metric.
Print Assumptions point_distance_exponent.
