(** C79: changing the units and the origin of filtration values. *)
From Coq Require Import Reals Lra Permutation Sorted.
From Verif Require Import Np NpFacts Fl FlFacts DiagTypes DiagModel DiagSpec DiagProofs DiagProofs2
  VecModel VecSpec SliceFacts VecProofs VecProofs2 VecProofs3 VecProofs4 VecThms RNp RNormFacts
  MetricModel MetricSpec MetricProofs MetricProofs2 MetricProofs3 MetricProofs4 MetricProofs5 MetricThms StabThms EquivSpec.
Open Scope Z_scope.

Section Units.
Variables a c : Qc.
Hypothesis Ha : (0 < a)%Qc.
Notation mv := (move a c).
Notation af := (affine a c).
Notation mvp := (fun p : Qc * Qc => (mv (fst p), mv (snd p))).

Lemma mv_le u v : (mv u <= mv v)%Qc <-> (u <= v)%Qc.
Proof.
  unfold move. split; intros H.
  - destruct (Qclt_le_dec v u) as [L|L]; [|assumption]. exfalso. assert (a * v < a * u)%Qc by (rewrite !(Qcmult_comm a); apply Qcmult_lt_compat_r; assumption). qlra.
  - assert (a * u <= a * v)%Qc by (rewrite !(Qcmult_comm a); apply Qcmult_le_compat_r; [assumption|now apply Qclt_le_weak]). qlra.
Qed.
Lemma mv_lt u v : (mv u < mv v)%Qc <-> (u < v)%Qc.
Proof.
  split; intros H; [destruct (Qclt_le_dec u v) as [|L]; [assumption|]; apply (proj2 (mv_le _ _)) in L; exfalso; exact (Qcle_not_lt _ _ L H)|].
  destruct (Qclt_le_dec (mv u) (mv v)) as [|L]; [assumption|]. apply (proj1 (mv_le _ _)) in L. exfalso; exact (Qcle_not_lt _ _ L H).
Qed.
Lemma mv_inj u v : mv u = mv v -> u = v.
Proof. intros E. apply Qcle_antisym; apply mv_le; rewrite E; apply Qcle_refl. Qed.
Lemma mv_leb u v : Qcleb (mv u) (mv v) = Qcleb u v.
Proof.
  destruct (Qcleb u v) eqn:E; [apply Qcleb_le; apply mv_le; now apply Qcleb_le|].
  destruct (Qcleb (mv u) (mv v)) eqn:F; [|reflexivity]. apply Qcleb_le in F. apply (proj1 (mv_le _ _)) in F. apply Qcleb_le in F. congruence.
Qed.
Lemma mv_ltb u v : Qcltb (mv u) (mv v) = Qcltb u v.
Proof.
  destruct (Qcltb u v) eqn:E; [apply Qcltb_lt; apply mv_lt; now apply Qcltb_lt|].
  destruct (Qcltb (mv u) (mv v)) eqn:F; [|reflexivity]. apply Qcltb_lt in F. apply (proj1 (mv_lt _ _)) in F. apply Qcltb_lt in F. congruence.
Qed.
Lemma mv_eqb u v : Qceqb (mv u) (mv v) = Qceqb u v.
Proof.
  destruct (Qceqb_spec u v) as [->|N]; [destruct (Qceqb_spec (mv v) (mv v)); congruence|].
  destruct (Qceqb_spec (mv u) (mv v)) as [F|]; [apply mv_inj in F; contradiction|reflexivity].
Qed.
Lemma mv_sub u v : (mv u - mv v = a * (u - v))%Qc.
Proof. unfold move. ring. Qed.
Lemma a_le u v : (a * u <= a * v)%Qc <-> (u <= v)%Qc.
Proof. pose proof (mv_le u v) as H. unfold move in H. rewrite <- H. split; intros; qlra. Qed.

(** *** diagrams *)
Lemma rows_of_affine q x : rows_of q (af x) = af (rows_of q x).
Proof.
  unfold rows_of, affine. induction x as [|p x IH]; [reflexivity|]. cbn [map filter pq]. destruct (feq (pq p) q); cbn [map]; now rewrite IH.
Qed.
Lemma dims_affine x : map pq (af x) = map pq x.
Proof. unfold affine. rewrite map_map. reflexivity. Qed.
Lemma finite_affine X : finite_points X -> finite_points (map af X).
Proof.
  intros H x p Hx Hp. apply in_map_iff in Hx. destruct Hx as [y [<- Hy]]. apply in_map_iff in Hp. destruct Hp as [r [<- Hr]].
  destruct (H y r Hy Hr) as [b [d [E1 [E2 L]]]]. exists (mv b), (mv d). cbn [pb pd]. rewrite E1, E2. cbn [fmove]. repeat split. now apply mv_le.
Qed.
Lemma balanced_affine q X : balanced q X -> balanced q (map af X).
Proof.
  intros [n H]. exists n. intros x Hx. apply in_map_iff in Hx. destruct Hx as [y [<- Hy]]. rewrite rows_of_affine. unfold affine. rewrite zlen_map. auto.
Qed.
Lemma hd_affine X : hd [] (map af X) = af (hd [] X).
Proof. destruct X; reflexivity. Qed.
Lemma trainable_affine X : trainable X -> trainable (map af X).
Proof.
  intros [H1 [H2 H3]]. split; [|split].
  - rewrite hd_affine. destruct (hd [] X); [contradiction|discriminate].
  - now apply finite_affine.
  - intros q Hq. rewrite hd_affine, dims_affine in Hq. destruct (H3 q Hq) as [N B]. split; [assumption|now apply balanced_affine].
Qed.
Lemma transformable_affine dims Y : transformable dims Y -> transformable dims (map af Y).
Proof.
  intros [H1 [H2 H3]]. split; [destruct Y; [contradiction|discriminate]|]. split; [now apply finite_affine|]. intros q Hq. now apply balanced_affine, H3.
Qed.
Lemma points_affine q Y y : finite_points Y -> In y Y -> points_of q (af y) = map mvp (points_of q y).
Proof.
  intros HF Hy. unfold points_of. rewrite rows_of_affine. unfold affine. rewrite !map_map. apply map_ext_in. intros p Hp. cbn [pb pd].
  apply rows_of_In in Hp. destruct (HF y p Hy Hp) as [b [d [-> [-> _]]]]. reflexivity.
Qed.

(** *** grids *)
Definition gmove (e : fl * (list Qc * fl)) : fl * (list Qc * fl) :=
  (fst e, (map mv (fst (snd e)), fmove a 0 (snd (snd e)))).
Lemma coordinate_affine q X v : coordinate q (map af X) v <-> exists u, coordinate q X u /\ v = mv u.
Proof.
  split.
  - intros [x [p [Hx [Hp H]]]]. apply in_map_iff in Hx. destruct Hx as [y [<- Hy]]. rewrite rows_of_affine in Hp. apply in_map_iff in Hp. destruct Hp as [r [<- Hr]].
    cbn [pb pd] in H. destruct H as [H|H].
    + destruct (pb r) as [| |u|] eqn:E; try discriminate. cbn in H. exists u. split; [exists y, r; auto|congruence].
    + destruct (pd r) as [| |u|] eqn:E; try discriminate. cbn in H. exists u. split; [exists y, r; auto|congruence].
  - intros [u [[x [p [Hx [Hp H]]]] ->]]. exists (af x), (Pt (fmove a c (pb p)) (fmove a c (pd p)) (pq p)). split; [now apply in_map|]. rewrite rows_of_affine. split.
    + unfold affine. apply in_map_iff. exists p. auto.
    + cbn [pb pd]. destruct H as [->| ->]; [left|right]; reflexivity.
Qed.
Lemma least_move (P P' : Qc -> Prop) lo : (forall v, P' v <-> exists u, P u /\ v = mv u) -> is_least lo P -> is_least (mv lo) P'.
Proof. intros H [H1 H2]. split; [apply H; eauto|]. intros w Hw. apply H in Hw. destruct Hw as [u [Hu ->]]. apply mv_le. auto. Qed.
Lemma greatest_move (P P' : Qc -> Prop) hi : (forall v, P' v <-> exists u, P u /\ v = mv u) -> is_greatest hi P -> is_greatest (mv hi) P'.
Proof. intros H [H1 H2]. split; [apply H; eauto|]. intros w Hw. apply H in Hw. destruct Hw as [u [Hu ->]]. apply mv_le. auto. Qed.
Lemma range_move (P P' A A' : Qc -> Prop) lo hi : (forall v, P' v <-> exists u, P u /\ v = mv u) -> (forall v, A' v <-> exists u, A u /\ v = mv u) ->
  is_range P A lo hi -> is_range P' A' (mv lo) (mv hi).
Proof.
  intros HP HA [H1 [m [H2 H3]]]. split; [now apply (least_move P)|]. exists (mv m). split; [now apply (greatest_move P)|].
  destruct H3 as [[N ->]|[-> H3]]; [left|right].
  - split; [|reflexivity]. intros E. apply mv_inj in E. contradiction.
  - split; [reflexivity|]. now apply (greatest_move A).
Qed.
Lemma grid_move lo hi n s step : 1 <= n -> is_grid lo hi n s step ->
  is_grid (mv lo) (mv hi) n (map mv s) (fmove a 0 step).
Proof.
  intros Hn [L [H0 [H1 H2]]]. split; [now rewrite zlen_map|]. split; [rewrite Znth_map, H0; reflexivity|]. split.
  - intros E. now rewrite (H1 E).
  - intros H. destruct (H2 H) as [-> [E1 E2]]. assert (N : qz (n - 1) <> 0%Qc) by (intros F; assert (n - 1 = 0) by (apply qz_inj; exact F); lia). split; [|split].
    + cbn [fmove]. f_equal. rewrite mv_sub. unfold move. field. exact N.
    + rewrite Znth_map, E1. reflexivity.
    + intros i Hi. rewrite Znth_map, (E2 i Hi). cbn [option_map]. f_equal. rewrite mv_sub. unfold move. field. exact N.
Qed.
Lemma fitted_move n X g : 1 <= n -> fitted_grids n X g -> fitted_grids n (map af X) (map gmove g).
Proof.
  intros Hn [[H1 H2] H3]. assert (E : map fst (map gmove g) = map fst g) by (rewrite map_map; reflexivity). split.
  - rewrite E. split; [assumption|]. intros q. now rewrite H2, hd_affine, dims_affine.
  - intros q s step He. apply in_map_iff in He. destruct He as [[q' [s' st']] [Ee He]]. unfold gmove in Ee. cbn [fst snd] in Ee. injection Ee as <- <- <-.
    destruct (H3 q' s' st' He) as [lo [hi [R G]]]. exists (mv lo), (mv hi). split; [|now apply grid_move]. rewrite E.
    eapply range_move; [| |exact R]; cbn beta.
    + intros v. apply coordinate_affine.
    + intros v. split.
      * intros [q [Hq Hv]]. apply coordinate_affine in Hv. destruct Hv as [u [Hu ->]]. eauto 6.
      * intros [u [[q [Hq Hu]] ->]]. exists q. split; [assumption|]. apply coordinate_affine. eauto.
Qed.
End Units.

(** *** grids are determined by the training collection *)
Lemma least_unique P u v : is_least u P -> is_least v P -> u = v.
Proof. intros [H1 H2] [H3 H4]. apply Qcle_antisym; auto. Qed.
Lemma greatest_unique P u v : is_greatest u P -> is_greatest v P -> u = v.
Proof. intros [H1 H2] [H3 H4]. apply Qcle_antisym; auto. Qed.
Lemma range_unique P A lo hi lo' hi' : is_range P A lo hi -> is_range P A lo' hi' -> lo = lo' /\ hi = hi'.
Proof.
  intros [H1 [m [H2 H3]]] [H1' [m' [H2' H3']]]. assert (lo = lo') by (eapply least_unique; eassumption). assert (m = m') by (eapply greatest_unique; eassumption). subst lo' m'.
  split; [reflexivity|]. destruct H3 as [[N ->]|[E G]], H3' as [[N' ->]|[E' G']]; try contradiction; try reflexivity. eapply greatest_unique; eassumption.
Qed.
Lemma is_grid_unique lo hi n s step s' step' : 1 <= n -> is_grid lo hi n s step -> is_grid lo hi n s' step' -> s = s' /\ step = step'.
Proof.
  intros Hn [L [H0 [H1 H2]]] [L' [H0' [H1' H2']]]. destruct (Z.eq_dec n 1) as [E|E].
  - split; [|rewrite H1, H1' by assumption; reflexivity]. apply Znth_ext; [lia|]. intros i Hi. assert (i = 0) by lia. subst i. congruence.
  - destruct (H2 ltac:(lia)) as [-> [_ G]], (H2' ltac:(lia)) as [-> [_ G']]. split; [|reflexivity]. apply Znth_ext; [lia|]. intros i Hi. rewrite G, G' by lia. reflexivity.
Qed.
Lemma assoc_unique {V} (g g' : list (fl * V)) : map fst g = map fst g' -> (forall q v v', In (q, v) g -> In (q, v') g' -> v = v') -> g = g'.
Proof.
  revert g'. induction g as [|[q v] g IH]; intros [|[q' v'] g'] E H; try discriminate; [reflexivity|]. cbn in E. injection E as -> E. f_equal.
  - f_equal. apply (H q'); now left.
  - apply IH; [assumption|]. intros q w w' H1 H2. apply (H q); now right.
Qed.
Lemma fitted_unique n X g g' : 1 <= n -> fitted_grids n X g -> fitted_grids n X g' -> g = g'.
Proof.
  intros Hn [[I1 K1] H] [[I2 K2] H']. assert (E : map fst g = map fst g') by (apply increasing_unique; try assumption; intros q; now rewrite K1, K2).
  apply assoc_unique; [assumption|]. intros q [s st] [s' st'] H1 H2. destruct (H q s st H1) as [lo [hi [R G]]], (H' q s' st' H2) as [lo' [hi' [R' G']]].
  rewrite <- E in R'. destruct (range_unique _ _ _ _ _ _ R R') as [<- <-]. destruct (is_grid_unique _ _ _ _ _ _ _ Hn G G'). congruence.
Qed.

(** *** two axes *)
Definition gmove2 (a c : Qc) (e : fl * grid) : fl * grid :=
  (fst e, ((map (move a c) (fst (fst (snd e))), fmove a 0 (snd (fst (snd e)))),
           (map (move a 0) (fst (snd (snd e))), fmove a 0 (snd (snd (snd e)))))).
Lemma birth_affine a c q X v : birth_value q (map (affine a c) X) v <-> exists u, birth_value q X u /\ v = move a c u.
Proof.
  split.
  - intros [x [p [Hx [Hp H]]]]. apply in_map_iff in Hx. destruct Hx as [y [<- Hy]]. rewrite rows_of_affine in Hp. apply in_map_iff in Hp. destruct Hp as [r [<- Hr]].
    cbn [pb] in H. destruct (pb r) as [| |b|] eqn:E; try discriminate. injection H as <-. exists b. split; [|reflexivity]. exists y, r. auto.
  - intros [u [[x [p [Hx [Hp H]]]] ->]]. exists (affine a c x), (Pt (fmove a c (pb p)) (fmove a c (pd p)) (pq p)). split; [now apply in_map|]. split.
    + rewrite rows_of_affine. apply in_map_iff. eauto.
    + cbn [pb]. now rewrite H.
Qed.
Lemma lifetime_affine a c q X v : lifetime_value q (map (affine a c) X) v <-> exists u, lifetime_value q X u /\ v = move a 0 u.
Proof.
  split.
  - intros [x [p [b' [d' [Hx [Hp [H1 [H2 ->]]]]]]]]. apply in_map_iff in Hx. destruct Hx as [y [<- Hy]]. rewrite rows_of_affine in Hp. apply in_map_iff in Hp. destruct Hp as [r [<- Hr]].
    cbn [pb pd] in H1, H2. destruct (pb r) as [| |b|] eqn:E; try discriminate. destruct (pd r) as [| |d|] eqn:E'; try discriminate. injection H1 as <-. injection H2 as <-.
    exists (d - b)%Qc. split; [|unfold move; ring]. exists y, r, b, d. auto.
  - intros [u [[x [p [b [d [Hx [Hp [H1 [H2 ->]]]]]]]] ->]]. exists (affine a c x), (Pt (fmove a c (pb p)) (fmove a c (pd p)) (pq p)), (move a c b), (move a c d). split; [now apply in_map|]. split.
    + rewrite rows_of_affine. apply in_map_iff. eauto.
    + cbn [pb pd]. rewrite H1, H2. repeat split. unfold move. ring.
Qed.
Lemma fitted2_move a c n X g : (0 < a)%Qc -> 1 <= n -> fitted_grids2 n X g -> fitted_grids2 n (map (affine a c) X) (map (gmove2 a c) g).
Proof.
  intros Ha Hn [[H1 H2] H3]. assert (E : map fst (map (gmove2 a c) g) = map fst g) by (rewrite map_map; reflexivity). split.
  - rewrite E. split; [assumption|]. intros q. now rewrite H2, hd_affine, dims_affine.
  - intros q s0 st0 s1 st1 He. apply in_map_iff in He. destruct He as [[q' [[t0 u0] [t1 u1]]] [Ee He]]. unfold gmove2 in Ee. cbn [fst snd] in Ee. injection Ee as <- <- <- <- <-.
    destruct (H3 _ _ _ _ _ He) as [[lo [hi [R G]]] [lo' [hi' [R' G']]]]. rewrite E. split.
    + exists (move a c lo), (move a c hi). split; [|now apply grid_move]. eapply range_move; [assumption| | |exact R]; cbn beta.
      * intros v. apply birth_affine.
      * intros v. split.
        -- intros [q [Hq Hv]]. apply birth_affine in Hv. destruct Hv as [u [Hu ->]]. eauto 6.
        -- intros [u [[q [Hq Hu]] ->]]. exists q. split; [assumption|]. apply birth_affine. eauto.
    + exists (move a 0 lo'), (move a 0 hi'). split; [|now apply grid_move]. eapply range_move; [assumption| | |exact R']; cbn beta.
      * intros v. apply lifetime_affine.
      * intros v. split.
        -- intros [q [Hq Hv]]. apply lifetime_affine in Hv. destruct Hv as [u [Hu ->]]. eauto 6.
        -- intros [u [[q [Hq Hu]] ->]]. exists q. split; [assumption|]. apply lifetime_affine. eauto.
Qed.
Lemma fitted2_unique n X g g' : 1 <= n -> fitted_grids2 n X g -> fitted_grids2 n X g' -> g = g'.
Proof.
  intros Hn [[I1 K1] H] [[I2 K2] H']. assert (E : map fst g = map fst g') by (apply increasing_unique; try assumption; intros q; now rewrite K1, K2).
  apply assoc_unique; [assumption|]. intros q [[s st] [t u]] [[s' st'] [t' u']] H1 H2. destruct (H _ _ _ _ _ H1) as [[lo [hi [R G]]] [lo1 [hi1 [R1 G1]]]], (H' _ _ _ _ _ H2) as [[lo' [hi' [R' G']]] [lo1' [hi1' [R1' G1']]]].
  rewrite <- E in R', R1'. destruct (range_unique _ _ _ _ _ _ R R') as [<- <-]. destruct (range_unique _ _ _ _ _ _ R1 R1') as [<- <-].
  destruct (is_grid_unique _ _ _ _ _ _ _ Hn G G'), (is_grid_unique _ _ _ _ _ _ _ Hn G1 G1'). congruence.
Qed.

(** *** values *)
Section Values.
Variables a c : Qc.
Hypothesis Ha : (0 < a)%Qc.
Notation mv := (move a c).
Notation af := (affine a c).
Notation mvp := (fun p : Qc * Qc => (mv (fst p), mv (snd p))).
Notation sc := (fun v : Qc => (a * v)%Qc).

Lemma Ha0 : a <> 0%Qc.
Proof. intros E. rewrite E in Ha. now apply (Qclt_not_eq _ _ Ha). Qed.
Lemma alive_move s x : alive_count (mv s) (map mvp x) = alive_count s x.
Proof. induction x as [|p x IH]; [reflexivity|]. cbn [map alive_count fst snd]. rewrite mv_leb, mv_ltb by assumption. now rewrite IH. Qed.
Lemma sc_leb u v : Qcleb (a * u) (a * v) = Qcleb u v.
Proof.
  pose proof (mv_leb a 0 Ha u v) as H. unfold move in H. rewrite !Qcplus_0_r in H. exact H.
Qed.
Lemma smin_sc u v : smin (a * u) (a * v) = (a * smin u v)%Qc.
Proof. unfold smin. rewrite sc_leb. now destruct (Qcleb u v). Qed.
Lemma smax_sc u v : smax (a * u) (a * v) = (a * smax u v)%Qc.
Proof. unfold smax. rewrite sc_leb. now destruct (Qcleb u v). Qed.
Lemma tent_move s p : tent (mv s) (mvp p) = (a * tent s p)%Qc.
Proof.
  unfold tent. cbn [fst snd]. rewrite !mv_sub. rewrite smin_sc. replace 0%Qc with (a * 0)%Qc at 1 by ring. apply smax_sc.
Qed.
Lemma kth_sc l k v : kth_largest l k v -> kth_largest (map sc l) k (a * v)%Qc.
Proof.
  intros [L [P [S H]]]. exists (map sc L). split; [now apply Permutation_map|]. split.
  - clear -S Ha. induction S as [|u L S IH F]; cbn [map]; constructor; [assumption|]. apply Forall_map. eapply Forall_impl; [|exact F]. cbn. intros w Hw. apply (a_le a 0 Ha). assumption.
  - rewrite Znth_map. destruct H as [->|[H ->]]; [left; reflexivity|right; split; [now rewrite zlen_map|ring]].
Qed.
Lemma layer_sc l k : 0 <= k -> layer (map sc l) k = (a * layer l k)%Qc.
Proof. intros Hk. symmetry. apply kth_largest_layer, kth_sc, layer_kth, Hk. Qed.
Lemma layer_move x k s : 0 <= k -> layer (map (tent (mv s)) (map mvp x)) k = (a * layer (map (tent s) x) k)%Qc.
Proof. intros Hk. rewrite <- layer_sc by assumption. rewrite !map_map. f_equal. apply map_ext. intros p. apply tent_move. Qed.

Lemma life_move p : life (mvp p) = (qr a * life p)%R.
Proof. unfold life. cbn [fst snd]. now rewrite mv_sub, qr_mul. Qed.
Lemma qa_pos : (0 < qr a)%R.
Proof. rewrite <- qr_0. now apply qr_lt. Qed.
Lemma rmax_scal k l : (0 <= k)%R -> rmax (map (fun v => k * v)%R l) = (k * rmax l)%R.
Proof.
  intros Hk. induction l as [|v l IH]; cbn [map rmax fold_right]; [ring|]. fold (rmax (map (fun v => k * v)%R l)). fold (rmax l). rewrite IH. now rewrite RmaxRmult.
Qed.
Definition wscale (power : expo) : R := match power with Pfin p => rpow (qr a) p | Pinf => 1%R end.
Lemma wscale_pos power : (0 < wscale power)%R.
Proof. destruct power; cbn; [apply rpow_gt0, qa_pos|lra]. Qed.
Lemma swt_move power x p : proper x -> pos_p power -> In p x -> swt power (map mvp x) (mvp p) = (wscale power * swt power x p)%R.
Proof.
  intros Hx Hp Hin. pose proof qa_pos as Q. destruct power as [q|]; cbn [swt wscale].
  - rewrite life_move. cbn in Hp. apply rpow_prod; [lra|now apply (life_nonneg x)|lra].
  - rewrite Rmult_1_l. rewrite life_move. replace (map life (map mvp x)) with (map (fun v => qr a * v)%R (map life x)) by (rewrite !map_map; apply map_ext; intros; symmetry; apply life_move).
    rewrite rmax_scal by lra. destruct (Req_EM_T (life p) (rmax (map life x))) as [E|E], (Req_EM_T (qr a * life p) (qr a * rmax (map life x))) as [F|F]; try reflexivity.
    + rewrite E in F. contradiction.
    + exfalso. apply E. apply Rmult_eq_reg_l in F; [assumption|lra].
Qed.
Lemma silv_move power x s : proper x -> pos_p power -> silv power (map mvp x) (mv s) = (qr a * silv power x s)%R.
Proof.
  intros Hx Hp. unfold silv. pose proof (wscale_pos power) as W. pose proof qa_pos as Q.
  assert (E1 : rsum (map (swt power (map mvp x)) (map mvp x)) = (wscale power * rsum (map (swt power x) x))%R).
  { rewrite <- rsum_scal, !map_map. f_equal. apply map_ext_in. intros p Hin. now apply swt_move. }
  assert (E2 : rsum (map (fun p => (swt power (map mvp x) p * qr (tent (mv s) p))%R) (map mvp x)) = (wscale power * qr a * rsum (map (fun p => (swt power x p * qr (tent s p))%R) x))%R).
  { rewrite <- rsum_scal, !map_map. f_equal. apply map_ext_in. intros p Hin. rewrite swt_move by assumption. rewrite tent_move, qr_mul. ring. }
  rewrite E1, E2. destruct (Req_EM_T (rsum (map (swt power x) x)) 0) as [E|E], (Req_EM_T (wscale power * rsum (map (swt power x) x)) 0) as [F|F].
  - ring.
  - exfalso. apply F. rewrite E. ring.
  - exfalso. apply Rmult_integral in F. destruct F; [lra|contradiction].
  - field. split; [assumption|lra].
Qed.

(** *** images *)
Lemma smin_mv u v : smin (mv u) (mv v) = mv (smin u v).
Proof. unfold smin. rewrite mv_leb by assumption. now destruct (Qcleb u v). Qed.
Lemma smax_mv u v : smax (mv u) (mv v) = mv (smax u v).
Proof. unfold smax. rewrite mv_leb by assumption. now destruct (Qcleb u v). Qed.
Lemma clamp_mv lo hi v : clamp (mv lo) (mv hi) (mv v) = mv (clamp lo hi v).
Proof. unfold clamp. now rewrite smin_mv, smax_mv. Qed.
Lemma cell_mv lo step k v : in_cell (mv lo) (a * step) k (mv v) = in_cell lo step k v.
Proof.
  unfold in_cell. replace (mv lo + qz k * (a * step))%Qc with (mv (lo + qz k * step)%Qc) by (unfold move; ring).
  replace (mv lo + qz (k + 1) * (a * step))%Qc with (mv (lo + qz (k + 1) * step)%Qc) by (unfold move; ring). now rewrite mv_leb, mv_ltb.
Qed.
Lemma heat_count_mv lo hi step i j x : heat_count (mv lo) (mv hi) (a * step) i j (map mvp x) = heat_count lo hi step i j x.
Proof.
  induction x as [|[b d] x IH]; [reflexivity|]. cbn [map heat_count fst snd]. cbn zeta. now rewrite !clamp_mv, !cell_mv, mv_eqb, IH.
Qed.
Definition idiv (k : Qc) (H : list (list Qc)) : list (list Qc) := map (map (fun v => v / k)%Qc) H.
Lemma idiv_shape {n m} k H : has_shape n m H -> has_shape n m (idiv k H).
Proof. intros [H1 H2]. split; [unfold idiv; now rewrite zlen_map|]. intros r Hr. apply in_map_iff in Hr. destruct Hr as [r' [<- Hr]]. rewrite zlen_map. auto. Qed.
Lemma idiv_entry k H i j : entry (idiv k H) i j = option_map (fun v => v / k)%Qc (entry H i j).
Proof. unfold entry, idiv. rewrite Znth_map. destruct (Znth H i); [cbn; now rewrite Znth_map|reflexivity]. Qed.
Lemma div_sc u v : v <> 0%Qc -> ((a * u) / (a * v) = u / v)%Qc.
Proof. intros Hv. field. split; [assumption|apply Ha0]. Qed.
Lemma sc_pos v : (0 < a * v)%Qc -> (0 < v)%Qc.
Proof. intros H. destruct (Qclt_le_dec 0 v) as [L|L]; [assumption|]. apply (a_le a 0 Ha) in L. rewrite Qcmult_0_r in L. exfalso. exact (Qcle_not_lt _ _ L H). Qed.
Lemma sc_0 v : (a * v = 0)%Qc -> v = 0%Qc.
Proof. intros H. apply Qcmult_integral in H. destruct H; [now apply Ha0 in H|assumption]. Qed.
Lemma pos_neq v : (0 < v)%Qc -> v <> 0%Qc.
Proof. intros H ->. now apply (Qclt_not_eq _ _ H). Qed.
Lemma is_heat_move gauss lo hi n step sigma x H : is_heat gauss lo hi n step sigma x H ->
  is_heat gauss (mv lo) (mv hi) n (a * step) (a * sigma) (map mvp x) (idiv (a * a) H).
Proof.
  intros [S [Z0 P]]. split; [now apply idiv_shape|]. split.
  - intros E r k Hr Hk. apply sc_0 in E. rewrite idiv_entry, (Z0 E r k Hr Hk). cbn. f_equal. apply Qcmult_0_l.
  - intros E. apply sc_pos in E. destruct (P E) as [R [SR [ER PR]]]. exists R. split; [assumption|]. split.
    + intros i j Hi Hj. rewrite heat_count_mv. auto.
    + intros r k Hr Hk. destruct (PR r k Hr Hk) as [u [v [E1 [E2 E3]]]]. exists u, v. cbn zeta. rewrite div_sc by now apply pos_neq. split; [assumption|]. split; [assumption|].
      rewrite idiv_entry, E3. cbn. f_equal. field. split; [now apply pos_neq|apply Ha0].
Qed.
End Values.

Section Images.
Variables a c : Qc.
Hypothesis Ha : (0 < a)%Qc.
Notation mv := (move a c).
Notation mvp := (fun p : Qc * Qc => (mv (fst p), mv (snd p))).
Lemma pi_count_mv lo0 hi0 st0 lo1 hi1 st1 i j x :
  pi_count (mv lo0) (mv hi0) (a * st0) (move a 0 lo1) (move a 0 hi1) (a * st1) i j (map mvp x) = pi_count lo0 hi0 st0 lo1 hi1 st1 i j x.
Proof.
  induction x as [|[b d] x IH]; [reflexivity|]. cbn [map pi_count fst snd]. cbn zeta. rewrite mv_sub. replace (a * (d - b))%Qc with (move a 0 (d - b)%Qc) by (unfold move; ring).
  rewrite !clamp_mv, !cell_mv by assumption. assert (E0 : forall v, Qceqb (move a 0 v) 0 = Qceqb v 0).
  { intros v. rewrite <- (mv_eqb a 0 Ha v 0). f_equal. unfold move. ring. }
  now rewrite E0, IH.
Qed.
Lemma is_pi_move gauss lo0 hi0 lo1 hi1 n st0 st1 sigma w x H : is_persistence_image gauss lo0 hi0 lo1 hi1 n st0 st1 sigma w x H ->
  is_persistence_image gauss (mv lo0) (mv hi0) (move a 0 lo1) (move a 0 hi1) n (a * st0) (a * st1) (a * sigma) w (map mvp x) (idiv (a * a) H).
Proof.
  intros [S [Z0 P]]. split; [now apply idiv_shape|]. split.
  - intros E r k Hr Hk. rewrite idiv_entry, (Z0 ltac:(destruct E as [E|E]; [left|right]; now apply (sc_0 a Ha)) r k Hr Hk). cbn. f_equal. apply Qcmult_0_l.
  - intros E0 E1. apply (sc_pos a Ha) in E0. apply (sc_pos a Ha) in E1. destruct (P E0 E1) as [R [SR [ER PR]]]. exists R. split; [assumption|]. split.
    + intros i j v Hi Hj Hw. rewrite pi_count_mv. auto.
    + intros r k Hr Hk. destruct (PR r k Hr Hk) as [u [E2 E3]]. exists u. rewrite !div_sc by (try assumption; now apply pos_neq). split; [assumption|].
      rewrite idiv_entry, E3. cbn. f_equal. field. repeat split; now apply pos_neq.
Qed.
End Images.

(** *** vectorisations *)
Lemma proper_points Y q y : finite_points Y -> In y Y -> proper (points_of q y).
Proof.
  intros HF Hy p Hp. unfold points_of in Hp. apply in_map_iff in Hp. destruct Hp as [r [<- Hr]]. apply rows_of_In in Hr.
  destruct (HF y r Hy Hr) as [b [d [-> [-> L]]]]. exact L.
Qed.
Lemma tabZ_ext_in {A} n (f g : Z -> A) : (forall k, 0 <= k < n -> f k = g k) -> tabZ n f = tabZ n g.
Proof. intros H. unfold tabZ. apply map_ext_in. intros k Hk. apply in_seq in Hk. apply H. lia. Qed.
Lemma map_tabZ {A B} n (f : Z -> A) (h : A -> B) : map h (tabZ n f) = tabZ n (fun k => h (f k)).
Proof. unfold tabZ. now rewrite map_map. Qed.

(** Betti curves do not depend on the units or the origin. *)
Theorem betti_curve_affine a c n_bins n_jobs X Y :
  (0 < a)%Qc -> 1 <= n_bins -> 1 <= n_jobs -> trainable X -> transformable (map pq (hd [] X)) Y ->
  exists R, betti_curve n_bins n_jobs X Y = Ok R /\
            betti_curve n_bins n_jobs (map (affine a c) X) (map (affine a c) Y) = Ok R.
Proof.
  intros Ha Hn HJ HX HY. destruct (betti_curve_ok n_bins X Hn HX) as [g [G H]].
  destruct (betti_curve_ok n_bins (map (affine a c) X) Hn (trainable_affine a c Ha X HX)) as [g' [G' H']].
  assert (g' = map (gmove a c) g) by (eapply fitted_unique; [exact Hn|exact G'|now apply fitted_move]). subst g'.
  eexists. split; [now apply H|]. rewrite H'; [|assumption|rewrite hd_affine, dims_affine; now apply transformable_affine]. f_equal.
  rewrite map_map. apply map_ext_in. intros y Hy. rewrite map_map. apply map_ext. intros [q [s st]]. cbn [gmove fst snd]. rewrite map_map. apply map_ext. intros t.
  rewrite (points_affine a c q Y y) by (try assumption; apply HY). now apply alive_move.
Qed.
(** Landscapes are multiplied by the factor. *)
Theorem persistence_landscape_affine partition a c n_layers n_bins n_jobs X Y :
  (0 < a)%Qc -> is_partition partition -> 1 <= n_layers -> 1 <= n_bins -> 1 <= n_jobs -> trainable X -> transformable (map pq (hd [] X)) Y ->
  exists R, persistence_landscape partition n_layers n_bins n_jobs X Y = Ok R /\
    persistence_landscape partition n_layers n_bins n_jobs (map (affine a c) X) (map (affine a c) Y) =
    Ok (map (map (map (fun v => a * v)%Qc)) R).
Proof.
  intros Ha HP HL Hn HJ HX HY. destruct (persistence_landscape_ok partition n_layers n_bins X HP HL Hn HX) as [g [G H]].
  destruct (persistence_landscape_ok partition n_layers n_bins (map (affine a c) X) HP HL Hn (trainable_affine a c Ha X HX)) as [g' [G' H']].
  assert (g' = map (gmove a c) g) by (eapply fitted_unique; [exact Hn|exact G'|now apply fitted_move]). subst g'.
  eexists. split; [now apply H|]. rewrite H'; [|assumption|rewrite hd_affine, dims_affine; now apply transformable_affine]. f_equal.
  rewrite !map_map. apply map_ext_in. intros y Hy. rewrite concat_map, !map_map. f_equal. apply map_ext. intros [q [s st]]. cbn [gmove fst snd].
  rewrite map_tabZ. apply tabZ_ext_in. intros k Hk. rewrite !map_map. apply map_ext. intros t.
  rewrite (points_affine a c q Y y) by (try assumption; apply HY). apply layer_move; [assumption|lia].
Qed.

Lemma off_affine a c q Y y : (0 < a)%Qc -> finite_points Y -> In y Y -> off_diagonal (points_of q y) <> [] -> off_diagonal (points_of q (affine a c y)) <> [].
Proof.
  intros Ha HF Hy H. rewrite (points_affine a c q Y y) by assumption. intros E. apply H. clear -E Ha. unfold off_diagonal in *.
  induction (points_of q y) as [|p x IH]; [reflexivity|]. cbn [map filter fst snd] in *. rewrite mv_eqb in E by assumption. destruct (Qceqb (fst p) (snd p)); cbn [negb] in *; [auto|discriminate].
Qed.
Lemma defined_affine a c m dims Y : (0 < a)%Qc -> finite_points Y -> defined_on m dims Y -> defined_on m dims (map (affine a c) Y).
Proof.
  intros Ha HF H. destruct m; try exact I. cbn in *. destruct H as [H|H]; [left; assumption|right]. intros y' q Hy' Hq. apply in_map_iff in Hy'. destruct Hy' as [y [<- Hy]].
  apply (off_affine a c q Y y); auto.
Qed.
(** Silhouettes are multiplied by the factor. *)
Theorem silhouette_affine power a c n_bins n_jobs X Y :
  (0 < a)%Qc -> pos_p power -> 1 <= n_bins -> 1 <= n_jobs -> trainable X -> transformable (map pq (hd [] X)) Y ->
  defined_on (Silhouette Pinf power) (map pq (hd [] X)) Y ->
  exists R, silhouette_transform power n_bins n_jobs X Y = Ok R /\
    silhouette_transform power n_bins n_jobs (map (affine a c) X) (map (affine a c) Y) =
    Ok (map (map (option_map (map (fun v => qr a * v)%R))) R).
Proof.
  intros Ha HP Hn HJ HX HY HD. destruct (silhouette_transform_ok power n_bins X Hn HP HX) as [g [G H]].
  destruct (silhouette_transform_ok power n_bins (map (affine a c) X) Hn HP (trainable_affine a c Ha X HX)) as [g' [G' H']].
  assert (g' = map (gmove a c) g) by (eapply fitted_unique; [exact Hn|exact G'|now apply fitted_move]). subst g'.
  eexists. split; [now apply H|]. rewrite hd_affine, dims_affine in H'. rewrite H'; [|assumption|now apply transformable_affine|apply defined_affine; [assumption|apply HY|assumption]]. f_equal.
  rewrite !map_map. apply map_ext_in. intros y Hy. rewrite !map_map. apply map_ext. intros [q [s st]]. cbn [gmove fst snd option_map]. rewrite !map_map. f_equal. apply map_ext. intros t.
  rewrite (points_affine a c q Y y) by (try assumption; apply HY). apply silv_move; try assumption. apply (proper_points Y); [apply HY|assumption].
Qed.

Lemma Forall2_move {A B C D} (P : A -> B -> Prop) (P' : C -> D -> Prop) (h : A -> C) (f : B -> D) Y R R' :
  (forall y r r', In y Y -> P y r -> P' (h y) r' -> r' = f r) -> Forall2 P Y R -> Forall2 P' (map h Y) R' -> R' = map f R.
Proof.
  intros H F. revert R'. induction F as [|y r Y R Hp F IH]; cbn [map]; intros R' F'; inversion F'; subst; [reflexivity|]. cbn [map]. f_equal.
  - apply (H y); auto. now left.
  - apply IH; [|assumption]. intros. eapply H; eauto. now right.
Qed.
(** Heat images with the bandwidth in the new units are divided by the square of
    the factor. *)
Theorem heat_kernel_affine gauss sigma a c n_bins n_jobs X Y :
  (0 < a)%Qc -> keeps_shape gauss -> 2 <= n_bins -> 1 <= n_jobs -> trainable X -> transformable (map pq (hd [] X)) Y ->
  exists R, heat_kernel gauss sigma n_bins n_jobs X Y = Ok R /\
    heat_kernel gauss (a * sigma) n_bins n_jobs (map (affine a c) X) (map (affine a c) Y) =
    Ok (map (map (map (map (fun v => v / (a * a))%Qc))) R).
Proof.
  intros Ha HG Hn HJ HX HY. destruct (heat_kernel_ok gauss sigma n_bins X HG Hn HX) as [g [G H]].
  destruct (heat_kernel_ok gauss (a * sigma)%Qc n_bins (map (affine a c) X) HG Hn (trainable_affine a c Ha X HX)) as [g' [G' H']].
  assert (g' = map (gmove a c) g) by (eapply fitted_unique; [|exact G'|apply fitted_move; [assumption|lia|assumption]]; lia). subst g'.
  destruct (H n_jobs Y HJ HY) as [R [E F]]. rewrite hd_affine, dims_affine in H'. destruct (H' n_jobs (map (affine a c) Y) HJ (transformable_affine a c Ha _ Y HY)) as [R' [E' F']].
  exists R. split; [assumption|]. rewrite E'. f_equal. eapply Forall2_move; [|exact F|exact F']. cbn beta. intros y r r' Hy K K'.
  eapply Forall2_move; [|exact K|exact K']. cbn beta. intros [q [s st]] im im' He [lo [hi [step [Z0 [Z1 [Es Hh]]]]]] [lo' [hi' [step' [Z0' [Z1' [Es' Hh']]]]]].
  cbn [gmove fst snd] in *. rewrite Es in Es'. cbn [fmove] in Es'. injection Es' as Es'. rewrite Znth_map, Z0 in Z0'. rewrite Znth_map, Z1 in Z1'. injection Z0' as <-. injection Z1' as <-. subst st.
  replace step' with (a * step)%Qc in Hh' by (rewrite <- Es'; unfold move; ring). rewrite (points_affine a c q Y y) in Hh' by (try assumption; apply HY).
  destruct G as [[I K0] G]. destruct (grid_lo_hi (fun q => coordinate q X) (map fst g) n_bins q s (Fin step) Hn) as [l2 [h2 [s2 [E2 [Z2 [Z3 [L2 G2]]]]]]].
  - exists q. split; [|reflexivity]. apply in_map_iff. exists (q, (s, Fin step)). auto.
  - apply G. assumption.
  - injection E2 as <-. destruct (is_grid_facts _ _ _ _ _ Hn G2) as [_ [_ [_ [_ Es2]]]]. pose proof (step_sign _ _ _ _ Hn L2 Es2) as Hs.
    eapply is_heat_same; [| | |exact Hh'|apply is_heat_move; [assumption|exact Hh]]; [lia| |apply Permutation_refl].
    apply (a_le a 0 Ha) in Hs. now rewrite Qcmult_0_r in Hs.
Qed.
(** Persistence images with the bandwidth and the weight function in the new
    units are divided by the square of the factor. *)
Theorem persistence_image_affine gauss wf wf' sigma a c n_bins n_jobs X Y :
  (0 < a)%Qc -> keeps_shape gauss -> (forall l, zlen (wf l) = zlen l) -> (forall l, zlen (wf' l) = zlen l) ->
  (forall l, wf' (map (fun v => a * v)%Qc l) = wf l) ->
  2 <= n_bins -> 1 <= n_jobs -> trainable X -> transformable (map pq (hd [] X)) Y ->
  exists R, persistence_image_transform gauss wf sigma n_bins n_jobs X Y = Ok R /\
    persistence_image_transform gauss wf' (a * sigma) n_bins n_jobs (map (affine a c) X) (map (affine a c) Y) =
    Ok (map (map (map (map (fun v => v / (a * a))%Qc))) R).
Proof.
  intros Ha HG HW HW' Hw Hn HJ HX HY. destruct (persistence_image_transform_ok gauss wf sigma n_bins X HG HW Hn HX) as [g [G H]].
  destruct (persistence_image_transform_ok gauss wf' (a * sigma)%Qc n_bins (map (affine a c) X) HG HW' Hn (trainable_affine a c Ha X HX)) as [g' [G' H']].
  assert (g' = map (gmove2 a c) g) by (eapply fitted2_unique; [|exact G'|apply fitted2_move; [assumption|lia|assumption]]; lia). subst g'.
  destruct (H n_jobs Y HJ HY) as [R [E F]]. rewrite hd_affine, dims_affine in H'. destruct (H' n_jobs (map (affine a c) Y) HJ (transformable_affine a c Ha _ Y HY)) as [R' [E' F']].
  exists R. split; [assumption|]. rewrite E'. f_equal. eapply Forall2_move; [|exact F|exact F']. cbn beta. intros y r r' Hy K K'.
  eapply Forall2_move; [|exact K|exact K']. cbn beta. intros [q [[s st] [t ut]]] im im' He [lo [hi [lo1 [hi1 [step [step1 [Z0 [Z1 [Z2 [Z3 [Es [Es1 Hh]]]]]]]]]]]] [lo' [hi' [lo1' [hi1' [step' [step1' [Z0' [Z1' [Z2' [Z3' [Es' [Es1' Hh']]]]]]]]]]]].
  cbn [gmove2 fst snd] in *. rewrite Es in Es'. rewrite Es1 in Es1'. cbn [fmove] in Es', Es1'. injection Es' as Es'. injection Es1' as Es1'. rewrite Znth_map, Z0 in Z0'. rewrite Znth_map, Z1 in Z1'. rewrite Znth_map, Z2 in Z2'. rewrite Znth_map, Z3 in Z3'. injection Z0' as <-. injection Z1' as <-. injection Z2' as <-. injection Z3' as <-. subst st ut.
  replace step' with (a * step)%Qc in Hh' by (rewrite <- Es'; unfold move; ring). replace step1' with (a * step1)%Qc in Hh' by (rewrite <- Es1'; unfold move; ring). rewrite (points_affine a c q Y y) in Hh' by (try assumption; apply HY).
  replace (wf' (map (move a 0) t)) with (wf t) in Hh' by (rewrite <- Hw; f_equal; apply map_ext; intros v; unfold move; ring).
  destruct G as [[I K0] G]. destruct (G _ _ _ _ _ He) as [GA GB]. assert (HQ : exists q', In q' (map fst g) /\ q' = q).
  { exists q. split; [|reflexivity]. apply in_map_iff. eexists. split; [|exact He]. reflexivity. }
  destruct (grid_lo_hi (fun q => birth_value q X) _ n_bins q _ _ Hn HQ GA) as [l2 [h2 [s2 [E2 [_ [_ [L2 G2]]]]]]]. injection E2 as <-.
  destruct (grid_lo_hi (fun q => lifetime_value q X) _ n_bins q _ _ Hn HQ GB) as [l3 [h3 [s3 [E3 [_ [_ [L3 G3]]]]]]]. injection E3 as <-.
  destruct (is_grid_facts _ _ _ _ _ Hn G2) as [_ [_ [_ [_ Es2]]]]. pose proof (step_sign _ _ _ _ Hn L2 Es2) as Hs.
  destruct (is_grid_facts _ _ _ _ _ Hn G3) as [Lt [_ [_ [_ Es3]]]]. pose proof (step_sign _ _ _ _ Hn L3 Es3) as Hs3.
  apply (a_le a 0 Ha) in Hs. rewrite Qcmult_0_r in Hs. apply (a_le a 0 Ha) in Hs3. rewrite Qcmult_0_r in Hs3.
  eapply is_pi_same; [| | | | |exact Hh'|apply is_pi_move; [assumption|exact Hh]]; [lia|assumption|assumption|now rewrite HW|reflexivity].
Qed.

(** *** amplitudes and distances *)
Lemma norm_scal p k v : pos_p p -> (0 <= k)%R -> norm p (map (fun x => k * x)%R v) = (k * norm p v)%R.
Proof.
  intros Hp Hk. destruct p as [p|]; cbn [norm].
  - cbn in Hp. rewrite map_map. replace (map (fun x => rpow (Rabs (k * x)) p) v) with (map (fun y => rpow k p * y)%R (map (fun x => rpow (Rabs x) p) v)).
    + rewrite rsum_scal. rewrite rpow_prod; [|now apply rpow_nonneg|apply rsum_nonneg, abs_pow_nonneg|].
      * rewrite rpow_inv by lra. reflexivity.
      * intros E. apply (Rmult_eq_compat_r p) in E. unfold Rdiv in E. rewrite Rmult_1_l, Rinv_l, Rmult_0_l in E by lra. lra.
    + rewrite map_map. apply map_ext. intros x. rewrite Rabs_mult, (Rabs_pos_eq k) by assumption. symmetry. apply rpow_prod; [assumption|apply Rabs_pos|lra].
  - rewrite map_map. rewrite <- rmax_scal by assumption. rewrite map_map. f_equal. apply map_ext. intros x. now rewrite Rabs_mult, (Rabs_pos_eq k).
Qed.
Definition cscale (a : R) (m : metric) : R :=
  match m with Bottleneck | Wasserstein _ | Landscape _ _ | Silhouette _ _ => a | Betti _ => 1 | Heat _ _ | PersImage _ _ _ => / (a * a) end%R.
Definition fscale (a : R) (m : metric) : R :=
  match m with Bottleneck | Wasserstein _ => 1 | Betti p | Landscape p _ | Silhouette p _ => root a p | Heat p _ | PersImage p _ _ => root (a * a) p end%R.
Lemma value_factor_eq a m : value_factor a m = (cscale a m * fscale a m)%R.
Proof. destruct m; cbn; unfold Rdiv; ring. Qed.
Lemma cscale_nonneg a m : (0 < a)%R -> (0 <= cscale a m)%R.
Proof. intros H. destruct m; cbn; try lra; apply Rlt_le, Rinv_0_lt_compat; nra. Qed.

Section Scale.
Variables a c : Qc.
Hypothesis Ha : (0 < a)%Qc.
Variable E : externals.
Notation mv := (move a c).
Notation mvp := (fun p : Qc * Qc => (mv (fst p), mv (snd p))).
Lemma qr_idiv v : qr (v / (a * a))%Qc = (/ (qr a * qr a) * qr v)%R.
Proof.
  pose proof (qa_pos a Ha) as Q. assert (N : (qr a * qr a <> 0)%R) by nra. apply (Rmult_eq_reg_l (qr a * qr a)); [|assumption].
  rewrite <- Rmult_assoc, Rinv_r, Rmult_1_l by assumption. rewrite <- !qr_mul. f_equal. field. now apply (Ha0 a).
Qed.
(** The grid in the new units. *)
Definition gm (m : metric) (g g' : grid) : Prop :=
  fst g' = (map mv (fst (fst g)), fmove a 0 (snd (fst g))) /\
  (uses_lifetimes m = true -> snd g' = (map (move a 0) (fst (snd g)), fmove a 0 (snd (snd g)))).
Lemma curve_move m n g g' x : good_parameters E m n -> entry_ok m n g -> gm m g g' -> proper x ->
  mcurve E (in_units a m) g' (map mvp x) = map (fun v => cscale (qr a) m * v)%R (mcurve E m g x).
Proof.
  intros [Hp HG] [HA HB] [E1 E2] HX. destruct g as [[s st] [t ut]], g' as [[s' st'] [t' ut']]. cbn [fst snd] in *. injection E1 as -> ->.
  assert (QA : qr a <> 0%R) by (pose proof (qa_pos a Ha); lra).
  destruct m as [|p|p|p L|p sg|p sg wf|p pw]; cbn [in_units mcurve cscale fst snd uses_lifetimes] in *.
  - unfold half_lifetimes. rewrite !map_map. apply map_ext. intros q. cbn [fst snd]. rewrite mv_sub. rewrite <- qr_mul. f_equal. unfold Qcdiv. ring.
  - unfold half_lifetimes. rewrite !map_map. apply map_ext. intros q. cbn [fst snd]. rewrite mv_sub. rewrite <- qr_mul. f_equal. unfold Qcdiv. ring.
  - rewrite !map_map. apply map_ext. intros q. rewrite alive_move by assumption. ring.
  - rewrite !concat_map, !map_tabZ. f_equal. apply tabZ_ext_in. intros k Hk. rewrite !map_map. apply map_ext. intros u. rewrite layer_move by (try assumption; lia). apply qr_mul.
  - destruct HA as [lo [hi [L G]]]. cbn [fst snd] in G. pose proof G as [_ [_ [_ G1]]]. destruct (G1 ltac:(lia)) as [Est _]. subst st. cbn [fmove].
    set (step := ((hi - lo) / qz (n - 1))%Qc) in *. destruct HG as [HK Hn].
    destruct (heat_ok (x_gauss1 E) lo hi n s step sg x HK Hn L G) as [H [-> [IH _]]].
    pose proof (grid_move a c lo hi n s (Fin step) ltac:(lia) G) as G'. cbn [fmove] in G'.
    destruct (heat_ok (x_gauss1 E) (mv lo) (mv hi) n (map mv s) (move a 0 step) (a * sg)%Qc (map mvp x) HK Hn ltac:(now apply mv_le) G') as [H' [-> [IH' _]]].
    replace (move a 0 step) with (a * step)%Qc in IH' by (unfold move; ring). apply (is_heat_move a c Ha) in IH.
    assert (EH : H' = idiv (a * a) H). { eapply is_heat_same; [| | |exact IH'|exact IH]; [lia| |apply Permutation_refl].
      destruct (is_grid_facts _ _ _ _ _ Hn G) as [_ [_ [_ [_ Es2]]]]. pose proof (step_sign _ _ _ _ Hn L Es2) as Hs. apply (a_le a 0 Ha) in Hs. now rewrite Qcmult_0_r in Hs. }
    rewrite EH. unfold idiv. rewrite <- concat_map, !map_map. apply map_ext. intros v. now apply qr_idiv.
  - specialize (E2 eq_refl). injection E2 as -> ->. specialize (HB eq_refl). destruct HA as [lo [hi [L G]]], HB as [lo1 [hi1 [L1 G1]]]. cbn [fst snd] in G, G1. destruct HG as [HK [HW Hn]].
    pose proof G as [_ [_ [_ F]]]. destruct (F ltac:(lia)) as [Est _]. subst st. clear F. pose proof G1 as [LT [_ [_ F]]]. destruct (F ltac:(lia)) as [Est _]. subst ut. clear F. cbn [fmove].
    set (step := ((hi - lo) / qz (n - 1))%Qc) in *. set (step1 := ((hi1 - lo1) / qz (n - 1))%Qc) in *.
    assert (EW : map (fun v => v / a)%Qc (map (move a 0) t) = t).
    { rewrite map_map. rewrite <- (map_id t) at 2. apply map_ext. intros v. unfold move. field. now apply (Ha0 a). }
    rewrite EW.
    destruct (persistence_image_ok (x_gauss2 E) lo hi lo1 hi1 n s t step step1 sg (wf t) x HK Hn L L1 G G1 ltac:(now rewrite HW)) as [H [-> IH]].
    pose proof (grid_move a c lo hi n s (Fin step) ltac:(lia) G) as G'. pose proof (grid_move a 0 lo1 hi1 n t (Fin step1) ltac:(lia) G1) as G1'. cbn [fmove] in G', G1'.
    destruct (persistence_image_ok (x_gauss2 E) (mv lo) (mv hi) (move a 0 lo1) (move a 0 hi1) n (map mv s) (map (move a 0) t) (move a 0 step) (move a 0 step1) (a * sg)%Qc (wf t) (map mvp x) HK Hn ltac:(now apply mv_le) ltac:(now apply mv_le) G' G1' ltac:(now rewrite HW)) as [H' [-> IH']].
    replace (move a 0 step) with (a * step)%Qc in IH' by (unfold move; ring). replace (move a 0 step1) with (a * step1)%Qc in IH' by (unfold move; ring). apply (is_pi_move a c Ha) in IH.
    assert (EH : H' = idiv (a * a) H).
    { destruct (is_grid_facts _ _ _ _ _ Hn G) as [_ [_ [_ [_ Es2]]]]. pose proof (step_sign _ _ _ _ Hn L Es2) as Hs. apply (a_le a 0 Ha) in Hs. rewrite Qcmult_0_r in Hs.
      destruct (is_grid_facts _ _ _ _ _ Hn G1) as [_ [_ [_ [_ Es3]]]]. pose proof (step_sign _ _ _ _ Hn L1 Es3) as Hs3. apply (a_le a 0 Ha) in Hs3. rewrite Qcmult_0_r in Hs3.
      eapply is_pi_same; [| | | | |exact IH'|exact IH]; [lia|assumption|assumption|now rewrite HW|reflexivity]. }
    rewrite EH. unfold idiv. rewrite <- concat_map, !map_map. apply map_ext. intros v. now apply qr_idiv.
  - rewrite !map_map. apply map_ext. intros u. apply silv_move; try assumption. tauto.
Qed.
Lemma factor_move m n g g' : good_parameters E m n -> entry_ok m n g -> gm m g g' ->
  mfactor (in_units a m) g' = (fscale (qr a) m * mfactor m g)%R.
Proof.
  intros [Hp HG] [HA HB] [E1 E2]. destruct g as [[s st] [t ut]], g' as [[s' st'] [t' ut']]. cbn [fst snd] in *. injection E1 as -> ->.
  pose proof (qa_pos a Ha) as QA.
  assert (Q1 : forall p st, (0 <= st)%Qc -> (1 <= p)%R -> rpow (qr (move a 0 st)) (1 / p) = (Rpower (qr a) (1 / p) * rpow (qr st) (1 / p))%R).
  { intros p s0 Hs Hp'. replace (move a 0 s0) with (a * s0)%Qc by (unfold move; ring). rewrite qr_mul, rpow_prod, (rpow_pos (qr a)); try assumption; try reflexivity; try lra.
    - rewrite <- qr_0. now apply qr_le.
    - unfold Rdiv. rewrite Rmult_1_l. apply Rinv_neq_0_compat. lra. }
  assert (Q2 : forall p, (1 <= p)%R -> rpow (qr a) (2 / p) = Rpower (qr a * qr a) (1 / p)).
  { intros p Hp'. rewrite rpow_pos by assumption. rewrite <- Rpower_mult_distr by assumption. rewrite <- Rpower_plus. f_equal. field. lra. }
  assert (ST : forall x y n', axis_ok n' (x, y) -> (n' = 1 -> False) -> 1 <= n' -> exists v, y = Fin v /\ (0 <= v)%Qc).
  { intros x y n' HA' H1 H2. destruct (axis_step n' (x, y) ltac:(lia) HA') as [v Hv]. exists v. exact Hv. }
  unfold mfactor. destruct m as [|p|p|p L|p sg|p sg wf|p pw]; cbn [in_units fscale fst snd uses_lifetimes exponent] in *; try ring.
  - destruct p as [p|]; cbn [step_factor root]; [|ring]. destruct (ST _ _ _ HA ltac:(intros F; destruct HG as [_ HG]; discriminate (HG F)) ltac:(lia)) as [v [-> Hv]]. cbn [fmove]. now apply Q1.
  - destruct p as [p|]; cbn [step_factor root]; [|ring]. destruct (ST _ _ _ HA ltac:(intros F; destruct HG as [_ [_ [_ HG]]]; discriminate (HG F)) ltac:(lia)) as [v [-> Hv]]. cbn [fmove]. now apply Q1.
  - destruct p as [p|]; cbn [step_factor root]; [|ring]. destruct (ST _ _ _ HA ltac:(lia) ltac:(lia)) as [v [-> Hv]]. cbn [fmove]. cbn in Hp. rewrite <- Q2 by assumption.
    replace (move a 0 v) with (a * v)%Qc by (unfold move; ring). rewrite qr_mul. apply rpow_prod; [lra|rewrite <- qr_0; now apply qr_le|]. unfold Rdiv. apply Rmult_integral_contrapositive. split; [lra|apply Rinv_neq_0_compat; lra].
  - specialize (E2 eq_refl). injection E2 as -> ->. specialize (HB eq_refl). destruct p as [p|]; cbn [step_factor2 root]; [|ring].
    destruct (ST _ _ _ HA ltac:(lia) ltac:(lia)) as [v [-> Hv]]. destruct (ST _ _ _ HB ltac:(lia) ltac:(lia)) as [w [-> Hw]]. cbn [fmove]. cbn in Hp.
    replace (move a 0 v * move a 0 w)%Qc with (a * a * (v * w))%Qc by (unfold move; ring). rewrite qr_mul, (qr_mul a a). rewrite rpow_prod, rpow_pos; try reflexivity; try nra.
    + rewrite qr_mul. apply Rmult_le_pos; rewrite <- qr_0; now apply qr_le.
    + unfold Rdiv. rewrite Rmult_1_l. apply Rinv_neq_0_compat. lra.
  - destruct p as [p|]; cbn [step_factor root]; [|ring]. destruct (ST _ _ _ HA ltac:(intros F; destruct HG as [_ [HG _]]; discriminate (HG F)) ltac:(lia)) as [v [-> Hv]]. cbn [fmove]. now apply Q1.
Qed.
Lemma grids_move m n X g g' : 1 <= n -> metric_grids m n X g -> metric_grids (in_units a m) n (map (affine a c) X) g' ->
  Forall2 (fun e e' => fst e' = fst e /\ gm m (snd e) (snd e')) g g'.
Proof.
  intros Hn HG HG'. destruct (uses_lifetimes m) eqn:U.
  - destruct m; try discriminate U. cbn [metric_grids in_units] in *. assert (g' = map (gmove2 a c) g) by (eapply fitted2_unique; [exact Hn|exact HG'|now apply fitted2_move]). subst g'.
    clear. induction g as [|e g IH]; cbn [map]; constructor; [|assumption]. destruct e as [q [[s st] [t ut]]]. repeat split.
  - assert (EG : map (fun e => (fst e, fst (snd e))) g' = map (gmove a c) (map (fun e => (fst e, fst (snd e))) g)).
    { eapply (fitted_unique n (map (affine a c) X)); [exact Hn| |apply fitted_move; [assumption|assumption|]]; destruct m; try discriminate U; assumption. }
    rewrite map_map in EG. clear HG HG'. revert g' EG. induction g as [|e g IH]; intros [|e' g'] EG; try discriminate; constructor.
    + cbn [map] in EG. injection EG as E1 E2 _. unfold gmove in *. cbn [fst snd] in *. repeat split; [assumption|assumption|congruence].
    + apply IH. cbn [map] in EG. now injection EG.
Qed.
Lemma params_move m n : good_parameters E m n -> good_parameters E (in_units a m) n.
Proof.
  intros [Hp HG]. destruct m; try exact (conj Hp HG). destruct HG as [A [B D]]. split; [exact Hp|]. split; [exact A|]. split; [|exact D].
  intros l. now rewrite B, zlen_map.
Qed.
Lemma exponent_units m : exponent (in_units a m) = exponent m.
Proof. now destruct m. Qed.
Lemma aval_move m n (e e' : fl * grid) Y y : good_parameters E m n -> entry_ok m n (snd e) -> fst e' = fst e -> gm m (snd e) (snd e') -> finite_points Y -> In y Y ->
  aval E (in_units a m) e' (affine a c y) = (value_factor (qr a) m * aval E m e y)%R.
Proof.
  intros HG HO E1 E2 HF Hy. unfold aval. rewrite exponent_units, E1, (points_affine a c (fst e) Y y) by assumption.
  rewrite (curve_move m n (snd e)); try assumption; [|now apply (proper_points Y)]. rewrite (factor_move m n (snd e)) by assumption.
  rewrite norm_scal; [|apply ge1_pos, HG|apply cscale_nonneg, qa_pos, Ha]. rewrite value_factor_eq. ring.
Qed.
Lemma vsub_scal k u v : vsub (map (fun x => k * x)%R u) (map (fun x => k * x)%R v) = map (fun x => k * x)%R (vsub u v).
Proof.
  unfold vsub. revert v. induction u as [|x u IH]; intros [|y v]; cbn; try reflexivity. f_equal; [ring|apply IH].
Qed.
Lemma dval_move m n (e e' : fl * grid) X Y y x : good_parameters E m n -> entry_ok m n (snd e) -> fst e' = fst e -> gm m (snd e) (snd e') ->
  finite_points Y -> In y Y -> finite_points X -> In x X ->
  dval E (in_units a m) e' (affine a c y) (affine a c x) = (value_factor (qr a) m * dval E m e y x)%R.
Proof.
  intros HG HO E1 E2 HF Hy HF' Hx. unfold dval, mink. rewrite exponent_units, E1, (points_affine a c (fst e) Y y), (points_affine a c (fst e) X x) by assumption.
  rewrite !(curve_move m n (snd e)); try assumption; [|now apply (proper_points X)|now apply (proper_points Y)]. rewrite (factor_move m n (snd e)) by assumption.
  rewrite vsub_scal, norm_scal; [|apply ge1_pos, HG|apply cscale_nonneg, qa_pos, Ha]. rewrite value_factor_eq. ring.
Qed.
End Scale.

Lemma map_Forall2 {A B C D} (R : A -> B -> Prop) (f : A -> C) (h : B -> D) (k : C -> D) l l' : Forall2 R l l' -> (forall a b, In a l -> R a b -> h b = k (f a)) -> map h l' = map k (map f l).
Proof.
  induction 1 as [|x y l l' Hr F IH]; intros H; [reflexivity|]. cbn [map]. f_equal; [apply H; [now left|assumption]|]. apply IH. intros. apply H; [now right|assumption].
Qed.
(** Amplitudes of diagrams in the new units. *)
Theorem amplitude_affine E m a c n n_jobs X Y :
  (0 < a)%Qc -> good_parameters E m n -> 1 <= n_jobs -> trainable X -> transformable (map pq (hd [] X)) Y ->
  defined_on m (map pq (hd [] X)) Y -> (m = Bottleneck -> has_points (map pq (hd [] X)) Y) ->
  exists A, amplitude E m n n_jobs X Y = Ok A /\
    amplitude E (in_units a m) n n_jobs (map (affine a c) X) (map (affine a c) Y) =
    Ok (map (map (option_map (fun v => value_factor (qr a) m * v)%R)) A).
Proof.
  intros Ha HG HJ HX HY HD HB. assert (Hn : 1 <= n) by (destruct HG as [_ G]; destruct m; lia).
  destruct (amplitude_ok E m n X HG HX) as [g [_ [G [_ [HE [_ H]]]]]].
  destruct (amplitude_ok E (in_units a m) n (map (affine a c) X) (params_move a E m n HG) (trainable_affine a c Ha X HX)) as [g' [_ [G' [_ [_ [_ H']]]]]].
  rewrite hd_affine, dims_affine in H'. eexists. split; [now apply H|]. rewrite H'; try assumption.
  - f_equal. rewrite !map_map. apply map_ext_in. intros y Hy. eapply map_Forall2; [apply (grids_move a c Ha m n X g g' Hn G G')|]. cbn beta. intros e e' He [E1 E2]. cbn [option_map]. f_equal.
    apply (aval_move a c Ha E m n e e' Y y); try assumption; [destruct e; eapply HE; exact He|apply HY].
  - now apply transformable_affine.
  - replace (defined_on (in_units a m)) with (defined_on m) by now destruct m. apply defined_affine; try assumption. apply HY.
  - intros EB y' q Hy' Hq. apply in_map_iff in Hy'. destruct Hy' as [y [<- Hy]]. rewrite rows_of_affine. specialize (HB ltac:(destruct m; solve [reflexivity|discriminate]) y q Hy Hq).
    unfold affine. destruct (rows_of q y); [contradiction|discriminate].
Qed.
(** Pairwise distances of diagrams in the new units, for the metrics that
    vectorise. *)
Theorem pairwise_distance_affine E m a c n n_jobs X Y :
  (0 < a)%Qc -> vectorised m -> good_parameters E m n -> 1 <= n_jobs -> trainable X -> defined_on m (map pq (hd [] X)) X ->
  transformable (map pq (hd [] X)) Y -> defined_on m (map pq (hd [] X)) Y ->
  exists D, pairwise_distance E m n n_jobs X Y = Ok D /\
    pairwise_distance E (in_units a m) n n_jobs (map (affine a c) X) (map (affine a c) Y) =
    Ok (map (map (map (option_map (fun v => value_factor (qr a) m * v)%R))) D).
Proof.
  intros Ha HV HG HJ HX HDX HY HD. assert (Hn : 1 <= n) by (destruct HG as [_ G]; destruct m; lia). assert (FX : finite_points X) by apply HX.
  assert (DU : defined_on (in_units a m) = defined_on m) by now destruct m.
  destruct (pairwise_distance_ok E m n X HV HG HX HDX) as [g [_ [G [_ [HE [_ H]]]]]].
  destruct (pairwise_distance_ok E (in_units a m) n (map (affine a c) X) ltac:(now destruct m) (params_move a E m n HG) (trainable_affine a c Ha X HX)) as [g' [_ [G' [_ [_ [_ H']]]]]].
  { rewrite hd_affine, dims_affine, DU. now apply defined_affine. }
  rewrite hd_affine, dims_affine in H'. eexists. split; [now apply H|]. rewrite H'; try assumption.
  - f_equal. rewrite !map_map. apply map_ext_in. intros y Hy. rewrite !map_map. apply map_ext_in. intros x Hx.
    eapply map_Forall2; [apply (grids_move a c Ha m n X g g' Hn G G')|]. cbn beta. intros e e' He [E1 E2]. cbn [option_map]. f_equal.
    apply (dval_move a c Ha E m n e e' X Y y x); try assumption; [destruct e; eapply HE; exact He|apply HY].
  - now apply transformable_affine.
  - rewrite DU. apply defined_affine; try assumption. apply HY.
Qed.

(** *** matchings *)
Definition mpt (a c : Qc) (p : Qc * Qc) : Qc * Qc := (move a c (fst p), move a c (snd p)).
Definition emove (a c : Qc) (e : edge) : edge :=
  match e with Pair p q => Pair (mpt a c p) (mpt a c q) | LeftOnly p => LeftOnly (mpt a c p) | RightOnly q => RightOnly (mpt a c q) end.
Lemma lefts_move a c M : lefts (map (emove a c) M) = map (mpt a c) (lefts M).
Proof. induction M as [|[p q|p|q] M IH]; cbn; [reflexivity| | |]; try (f_equal; exact IH). Qed.
Lemma rights_move a c M : rights (map (emove a c) M) = map (mpt a c) (rights M).
Proof. induction M as [|[p q|p|q] M IH]; cbn; [reflexivity| | |]; try (f_equal; exact IH). Qed.
Lemma matching_move a c x y M : is_matching x y M -> is_matching (map (mpt a c) x) (map (mpt a c) y) (map (emove a c) M).
Proof. intros [H1 H2]. split; rewrite ?lefts_move, ?rights_move; now apply Permutation_map. Qed.
Lemma qr_move a c v : qr (move a c v) = (qr a * qr v + qr c)%R.
Proof. unfold move. now rewrite qr_add, qr_mul. Qed.
Lemma ecost_move a c e : (0 < a)%Qc -> ecost (emove a c e) = (qr a * ecost e)%R.
Proof.
  intros Ha. pose proof (qa_pos a Ha) as Q. assert (L : forall p, life (mpt a c p) = (qr a * life p)%R) by (intros p; apply (life_move a c)).
  destruct e as [p q|p|p]; cbn [emove ecost].
  - unfold cheb, real_pt, mpt. cbn [fst snd]. rewrite !qr_move. rewrite <- RmaxRmult by lra.
    f_equal; match goal with |- Rabs ?u = (qr a * Rabs ?v)%R => replace u with (qr a * v)%R by ring; now rewrite Rabs_mult, (Rabs_pos_eq (qr a)) by lra end.
  - rewrite L, Rabs_mult, (Rabs_pos_eq (qr a)) by lra. field.
  - rewrite L, Rabs_mult, (Rabs_pos_eq (qr a)) by lra. field.
Qed.
Lemma ecosts_move a c p M : (0 < a)%Qc -> pos_p p -> norm p (map ecost (map (emove a c) M)) = (qr a * norm p (map ecost M))%R.
Proof.
  intros Ha Hp. rewrite <- norm_scal; [|assumption|pose proof (qa_pos a Ha); lra]. f_equal. rewrite !map_map. apply map_ext. intros e. now apply ecost_move.
Qed.
Lemma move_back a c v : a <> 0%Qc -> move (/ a) (- (c / a)) (move a c v) = v.
Proof. intros H. unfold move. field. assumption. Qed.
Lemma mpt_back a c x : a <> 0%Qc -> map (mpt (/ a) (- (c / a))) (map (mpt a c) x) = x.
Proof. intros H. rewrite map_map. rewrite <- map_id. apply map_ext. intros [b d]. unfold mpt. cbn [fst snd]. now rewrite !move_back. Qed.
Lemma inv_pos a : (0 < a)%Qc -> (0 < / a)%Qc.
Proof.
  intros H. destruct (Qclt_le_dec 0 (/ a)) as [L|L]; [assumption|]. exfalso. apply (a_le a 0 H) in L. rewrite Qcmult_inv_r in L by now apply pos_neq. rewrite Qcmult_0_r in L. qlra.
Qed.
(** The cost of the best matching is multiplied by the factor. *)
Theorem matching_distance_affine a c p x y r : (0 < a)%Qc -> ge1 p ->
  is_matching_distance p x y r ->
  is_matching_distance p (map (fun q => (a * fst q + c, a * snd q + c)%Qc) x) (map (fun q => (a * fst q + c, a * snd q + c)%Qc) y) (qr a * r).
Proof.
  intros Ha Hp [[M [HM HC]] HL]. apply ge1_pos in Hp. pose proof (qa_pos a Ha) as Q. change (fun q => (a * fst q + c, a * snd q + c)%Qc) with (mpt a c). split.
  - exists (map (emove a c) M). split; [now apply matching_move|]. apply matching_cost_iff in HC; [|assumption]. subst r. apply matching_cost_iff; [assumption|]. symmetry. now apply ecosts_move.
  - intros M' r' HM' HC'. apply (matching_move (/ a) (- (c / a))) in HM'. rewrite !mpt_back in HM' by now apply pos_neq. apply matching_cost_iff in HC'; [|assumption]. subst r'.
    specialize (HL _ _ HM' (proj2 (matching_cost_iff p _ _ Hp) eq_refl)). rewrite ecosts_move in HL by (try assumption; now apply inv_pos).
    assert (EI : (qr a * qr (/ a) = 1)%R). { rewrite <- qr_mul, Qcmult_inv_r by now apply pos_neq. apply (qr_qz 1). }
    apply (Rmult_le_compat_l (qr a)) in HL; [|lra]. rewrite <- Rmult_assoc, EI, Rmult_1_l in HL. exact HL.
Qed.
Lemma off_move a c x : (0 < a)%Qc -> off_diagonal (map (mpt a c) x) = map (mpt a c) (off_diagonal x).
Proof.
  intros Ha. unfold off_diagonal. induction x as [|p x IH]; [reflexivity|]. cbn [map filter]. unfold mpt at 1 2. cbn [fst snd]. rewrite mv_eqb by assumption. destruct (Qceqb (fst p) (snd p)); cbn [negb map]; now rewrite IH.
Qed.
(** Bottleneck and Wasserstein distances, computed exactly. *)
Theorem point_distance_affine E m a c n n_jobs X Y :
  (0 < a)%Qc -> ~ vectorised m -> ge1 (exponent m) ->
  match m with Bottleneck => approximates 0 Pinf (x_bottleneck E) | Wasserstein p => approximates 0 (Pfin p) (x_wasserstein E p) | _ => True end ->
  1 <= n -> 1 <= n_jobs -> trainable X -> transformable (map pq (hd [] X)) Y ->
  exists D, pairwise_distance E m n n_jobs X Y = Ok D /\
    pairwise_distance E m n n_jobs (map (affine a c) X) (map (affine a c) Y) =
    Ok (map (map (map (option_map (fun v => qr a * v)%R))) D).
Proof.
  intros Ha HV Hp HE Hn HJ HX HY. assert (FX : finite_points X) by apply HX.
  destruct (pairwise_points_ok E m n X HV Hn HX) as [g [_ [_ [G [_ H]]]]].
  destruct (pairwise_points_ok E m n (map (affine a c) X) HV Hn (trainable_affine a c Ha X HX)) as [g' [_ [_ [G' [_ H']]]]].
  rewrite hd_affine, dims_affine in H'. eexists. split; [now apply H|]. rewrite H'; [|assumption|now apply transformable_affine].
  f_equal. rewrite !map_map. apply map_ext_in. intros y Hy. rewrite !map_map. apply map_ext_in. intros x Hx.
  eapply map_Forall2; [apply (grids_move a c Ha m n X g g' Hn G); destruct m; assumption|]. cbn beta. intros e e' He [E1 _]. cbn [option_map]. f_equal. rewrite E1.
  unfold pval. rewrite (points_affine a c (fst e) Y y), (points_affine a c (fst e) X x) by (try assumption; apply HY).
  change (fun p => (move a c (fst p), move a c (snd p))) with (mpt a c). rewrite !off_move by assumption.
  set (u := off_diagonal (points_of (fst e) y)). set (v := off_diagonal (points_of (fst e) x)).
  assert (K : forall p f, ge1 p -> approximates 0 p f -> f (map (mpt a c) u) (map (mpt a c) v) = (qr a * f u v)%R).
  { intros p f Hp' Hf. destruct (matching_distance_exists p u v Hp') as [r Hr]. pose proof (Hf _ _ _ Hr). pose proof (Hf _ _ _ (matching_distance_affine a c p u v r Ha Hp' Hr)) as K2.
    change (fun q => (a * fst q + c, a * snd q + c)%Qc) with (mpt a c) in K2. assert (f u v = r) by lra. rewrite H1. lra. }
  destruct m; try (exfalso; exact (HV I)); eapply K; eassumption.
Qed.

(** Diagrams, parameters and externals that meet the hypotheses of all the
    theorems; the new units differ from the old ones. *)
Example equiv_example :
  let X := of_raw ex_raw0 in let wf := fun l : list Qc => l in let wf' := map (fun v => v / qz 2)%Qc in
  (0 < qz 2)%Qc /\ trainable X /\ transformable (map pq (hd [] X)) X /\ has_points (map pq (hd [] X)) X /\
  is_partition (x_partition stab_E) /\ keeps_shape (x_gauss1 stab_E) /\ keeps_shape (x_gauss2 stab_E) /\
  (forall l, zlen (wf l) = zlen l) /\ (forall l, zlen (wf' l) = zlen l) /\ (forall l, wf' (map (fun v => qz 2 * v)%Qc l) = wf l) /\
  defined_on (Silhouette Pinf (Pfin 1)) (map pq (hd [] X)) X /\
  (forall m, In m [Bottleneck; Wasserstein 2; Betti (Pfin 2); Landscape Pinf 2; Silhouette (Pfin 2) (Pfin 1); Heat (Pfin 2) (qz 1); PersImage Pinf (qz 1) wf] ->
     good_parameters stab_E m 3 /\ defined_on m (map pq (hd [] X)) X) /\
  approximates 0 Pinf (x_bottleneck stab_E) /\ approximates 0 (Pfin 2) (x_wasserstein stab_E 2) /\
  map (affine (qz 2) (qz 3)) X <> X.
Proof.
  cbn zeta. assert (P : is_partition (x_partition stab_E)) by apply partition_exists. destruct ex_trivial as [T [_ Hp]].
  assert (K1 : keeps_shape (x_gauss1 stab_E)) by (intros n p im H; exact H). assert (K2 : keeps_shape (x_gauss2 stab_E)) by (intros n p im H; exact H).
  split; [now apply qz_lt|]. split; [exact T|]. split; [now apply trainable_transformable|]. split; [exact Hp|]. split; [exact P|]. split; [exact K1|]. split; [exact K2|].
  split; [reflexivity|]. split; [intros l; apply zlen_map|]. split.
  { intros l. rewrite map_map. rewrite <- map_id. apply map_ext. intros v. field. discriminate. }
  split; [left; lra|]. split.
  { intros m Hm. cbn in Hm. destruct Hm as [<-|[<-|[<-|[<-|[<-|[<-|[<-|[]]]]]]]]; (split; [split; [cbn; try lra; exact I|cbn]|cbn; try exact I; left; lra]).
    - lia.
    - lia.
    - split; [lia|discriminate].
    - split; [lia|]. split; [exact P|]. split; [lia|reflexivity].
    - split; [lia|]. split; [discriminate|lra].
    - split; [exact K1|lia].
    - split; [exact K2|]. split; [reflexivity|lia]. }
  split; [apply exact_algorithm_exists; exact I|]. split; [apply (exact_algorithm_exists (Pfin 2)); cbn; lra|].
  intros H. apply (f_equal (fun X => match hd [] X with p :: _ => match pb p with Fin q => Qceqb q (qz 0) | _ => false end | [] => false end)) in H. vm_compute in H. discriminate.
Qed.

Print Assumptions betti_curve_affine.
Print Assumptions persistence_landscape_affine.
Print Assumptions silhouette_affine.
Print Assumptions heat_kernel_affine.
Print Assumptions persistence_image_affine.
Print Assumptions amplitude_affine.
Print Assumptions pairwise_distance_affine.
Print Assumptions matching_distance_affine.
Print Assumptions point_distance_affine.
