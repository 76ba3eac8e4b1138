(** C70, C71: heat maps, point clouds, derivatives and Betti curves. *)
From Verif Require Import Np NpFacts Fl FlFacts DiagTypes DiagModel DiagSpec DiagProofs DiagProofs2 DiagProofs3
  VecModel VecSpec VecProofs VecProofs2 VecProofs3 VecProofs4 VecThms CurveModel
  PlotTypes PlotModel PlotSpec PlotThms PlotThms3.
From Verif Require CurveThms2 FilterThms FilterThms2.
Open Scope Z_scope.

Lemma int_label_ok q n : named q n -> int_label q = Ok q.
Proof. intros [[-> _]|[k [-> _]]]; [reflexivity|]. unfold int_label. rewrite py_int_fz. reflexivity. Qed.

(** Grid values are distinct. *)
Lemma grid_inj lo hi n s st a b u : 1 < n -> is_grid lo hi n s (Fin st) -> (0 < st)%Qc ->
  Znth s a = Some u -> Znth s b = Some u -> a = b.
Proof.
  intros Hn [L [_ [_ G]]] Hst Ha Hb. destruct (G Hn) as [E [_ V]]. injection E as E.
  pose proof (Znth_Some_lt _ _ _ Ha) as Ba. pose proof (Znth_Some_lt _ _ _ Hb) as Bb.
  rewrite V in Ha by lia. rewrite V in Hb by lia. rewrite <- E in Ha, Hb. assert (H : (lo + qz a * st)%Qc = (lo + qz b * st)%Qc) by congruence.
  assert (H2 : (qz a * st)%Qc = (qz b * st)%Qc).
  { transitivity (lo + qz a * st - lo)%Qc; [ring|]. rewrite H. ring. }
  assert (NZ : st <> 0%Qc) by (intros ->; qlra). apply qz_inj.
  transitivity (qz a * st / st)%Qc; [now field|]. rewrite H2. now field.
Qed.

(** ** HeatKernel.plot: the value drawn at birth u and death v is the one computed
    for (u, v), and both axes increase as usual (to the right and upwards). *)
Lemma drawn_rev (z : image) (sx sy : list Qc) a b u v w n : zlen sy = n ->
  (forall i j x, Znth sx i = Some x -> Znth sx j = Some x -> i = j) ->
  (forall i j x, Znth sy i = Some x -> Znth sy j = Some x -> i = j) ->
  Znth sx a = Some u -> Znth sy b = Some v -> entry z (n - 1 - b) a = Some w ->
  forall t, drawn_at (plot_heatmap z (Some sx) (Some (rev sy)) Lower) u v t <-> t = w.
Proof.
  intros Ln Hx Hy Ha Hb Hw t. pose proof (Znth_Some_lt _ _ _ Hb) as Bb. unfold drawn_at. cbn [h_x h_y h_z plot_heatmap]. split.
  - intros [xs [ys [r [c [[= <-] [[= <-] [Hc [Hr E]]]]]]]]. assert (c = a) by (eapply Hx; eassumption). subst c.
    pose proof (Znth_Some_lt _ _ _ Hr) as Br. rewrite zlen_rev in Br. rewrite Znth_rev in Hr by lia.
    assert (zlen sy - 1 - r = b) by (eapply Hy; eassumption). replace r with (n - 1 - b) in E by lia. congruence.
  - intros ->. exists sx, (rev sy), (n - 1 - b), a. split; [reflexivity|]. split; [reflexivity|]. split; [assumption|]. split; [|assumption].
    rewrite Znth_rev by lia. rewrite <- Hb. f_equal. lia.
Qed.

Lemma py_get_wrap {A} (l : list A) j idx x : Znth l j = Some x -> idx = j \/ idx = j - zlen l -> py_get l idx = Ok x.
Proof.
  intros H Hi. pose proof (Znth_Some_lt _ _ _ H) as B. unfold py_get. replace (if idx <? 0 then idx + zlen l else idx) with j; [now rewrite H|].
  destruct (Z.ltb_spec idx 0); lia.
Qed.

Theorem heat_kernel_plot_spec gauss sigma n_bins X :
  keeps_shape gauss -> 2 <= n_bins -> trainable X ->
  (forall q, In q (map pq (hd [] X)) -> exists nm, named q nm) ->
  exists g, fitted_grids n_bins X g /\ fit_dims X = Ok (map fst g) /\
    fit_samplings n_bins X = Ok (map (fun e => (fst e, fst (snd e))) g) /\
    forall n_jobs Y i y idx j q s step, 1 <= n_jobs -> transformable (map pq (hd [] X)) Y -> Znth Y i = Some y ->
    Znth g j = Some (q, (s, step)) -> idx = j \/ idx = j - zlen g ->
    exists Yt c h lo hi st, heat_kernel gauss sigma n_bins n_jobs X Y = Ok Yt /\ py_get Yt i = Ok c /\
      plot_heat_kernel (map fst g) (map (fun e => (fst e, fst (snd e))) g) c idx = Ok h /\
      h_reversed h = false /\
      step = Fin st /\ Znth s 0 = Some lo /\ Znth s (n_bins - 1) = Some hi /\
      (st = 0%Qc -> forall u v t, drawn_at h u v t -> t = 0%Qc) /\
      ((0 < st)%Qc -> exists raster, has_shape n_bins n_bins raster /\
         (forall a b, 0 <= a < n_bins -> 0 <= b < n_bins ->
            entry raster a b = Some (qz (heat_count lo hi st a b (points_of q y)))) /\
         forall a b u v, Znth s a = Some u -> Znth s b = Some v -> exists w w',
           let smoothed := gauss (smin (sigma / st) (qz (10 ^ 5 * n_bins)))%Qc raster in
           entry smoothed a b = Some w /\ entry smoothed b a = Some w' /\
           forall t, drawn_at h u v t <-> t = ((w - w') / (st * st))%Qc).
Proof.
  intros HK Hn HT HQ. destruct (fit_samplings_ok n_bins X ltac:(lia) HT) as [g [HG [E1 [E2 [HI [HN Hg]]]]]]. exists g. split; [assumption|]. split; [assumption|]. split; [assumption|].
  intros n_jobs Y i y idx j q s step HJ HY Hi Hj Hidx. destruct (heat_kernel_spec gauss sigma n_bins X HK Hn HT) as [g' [HG' HB]].
  rewrite (fitted_grids_unique n_bins X g' g ltac:(lia) HG' HG) in HB. clear g' HG'. destruct (HB n_jobs Y HJ HY) as [R [ER FR]].
  assert (LS : zlen Y = zlen R) by exact (Forall2_zlen _ _ _ FR).
  destruct (Znth_ex R i) as [c Ec]; [rewrite <- LS; now apply Znth_Some_lt in Hi|].
  pose proof (Forall2_Znth _ _ _ i _ _ FR Hi Ec) as FC. cbn beta in FC.
  assert (LC : zlen g = zlen c) by exact (Forall2_zlen _ _ _ FC).
  destruct (Znth_ex c j) as [z Ez]; [rewrite <- LC; now apply Znth_Some_lt in Hj|].
  destruct (Forall2_Znth _ _ _ j _ _ FC Hj Ez) as [lo [hi [st [Z0 [Z1 [Es HH]]]]]]. cbn [fst snd] in *.
  assert (Iq : In q (map fst g)) by (apply in_map_iff; exists (q, (s, step)); split; [reflexivity|now apply Znth_In in Hj]).
  assert (Hq : exists nm, named q nm) by (apply HQ; apply HG; assumption). destruct Hq as [nm Hq].
  assert (Hd : dict_get (map (fun e => (fst e, fst (snd e))) g) q = Ok s).
  { apply increasing_keys; rewrite ?map_map; try assumption. apply in_map_iff. exists (q, (s, step)). split; [reflexivity|]. now apply Znth_In in Hj. }
  exists R, c, (plot_heatmap z (Some s) (Some (rev s)) Lower), lo, hi, st. split; [assumption|].
  pose proof (Znth_Some_lt _ _ _ Hi). split; [apply py_get_in; [lia|assumption]|]. split.
  { unfold plot_heat_kernel. rewrite (py_get_wrap (map fst g) j idx q) by (rewrite ?Znth_map, ?Hj, ?zlen_map; auto). cbn [bind].
    rewrite (int_label_ok q nm Hq). cbn [bind]. rewrite Hd. cbn [bind]. rewrite (py_get_wrap c j idx z) by (rewrite <- ?LC; auto). reflexivity. }
  split; [reflexivity|]. split; [assumption|]. split; [assumption|]. split; [assumption|].
  assert (GR : is_grid lo hi n_bins s (Fin st)).
  { destruct (grid_lo_hi (fun q => coordinate q X) (map fst g) n_bins q s step) as [lo' [hi' [st' [A1 [A2 [A3 [_ A4]]]]]]]; [assumption|exists q; auto|apply HG; now apply Znth_In in Hj|].
    assert (lo' = lo) by congruence. assert (hi' = hi) by congruence. assert (st' = st) by congruence. now subst. }
  assert (Ls : zlen s = n_bins) by apply GR. destruct HH as [SH [H0 HP]]. split.
  - intros E u v t [xs [ys [r [cc [_ [[= <-] [Hc [Hr Ht]]]]]]]]. cbn [h_z plot_heatmap] in Ht. pose proof (Znth_Some_lt _ _ _ Hr) as Br. rewrite zlen_rev in Br.
    assert (Bc : 0 <= cc < n_bins).
    { unfold entry in Ht. destruct (Znth z r) as [row|] eqn:Er; [|discriminate]. apply Znth_Some_lt in Ht. apply Znth_In in Er. now rewrite (proj2 SH row Er) in Ht. }
    rewrite H0 in Ht by (auto; lia). congruence.
  - intros Hst. destruct (HP Hst) as [ra [SR [HR HE]]]. exists ra. split; [assumption|]. split; [assumption|]. intros a b u v Ha Hb.
    pose proof (Znth_Some_lt _ _ _ Ha) as Ba. pose proof (Znth_Some_lt _ _ _ Hb) as Bb. destruct (HE (n_bins - 1 - b) a ltac:(lia) ltac:(lia)) as [w [w' [A1 [A2 A3]]]]. cbv zeta in *.
    replace (n_bins - 1 - (n_bins - 1 - b)) with b in * by lia. exists w, w'. split; [assumption|]. split; [assumption|].
    apply (drawn_rev z s s a b u v _ n_bins Ls); try assumption; intros i1 i2 x; apply (grid_inj lo hi n_bins s st); try assumption; lia.
Qed.

(** PersistenceImage.plot: births to the right, persistence upwards. *)
Theorem persistence_image_plot_spec gauss weight_function sigma n_bins X :
  keeps_shape gauss -> (forall l, zlen (weight_function l) = zlen l) -> 2 <= n_bins -> trainable X ->
  (forall q, In q (map pq (hd [] X)) -> exists nm, named q nm) ->
  exists g, fitted_grids2 n_bins X g /\ fit_dims X = Ok (map fst g) /\
    fit_samplings2 n_bins X = Ok (map (fun e => (fst e, (fst (fst (snd e)), fst (snd (snd e))))) g) /\
    forall n_jobs Y i y idx j q s0 step0 s1 step1, 1 <= n_jobs -> transformable (map pq (hd [] X)) Y -> Znth Y i = Some y ->
    Znth g j = Some (q, ((s0, step0), (s1, step1))) -> idx = j \/ idx = j - zlen g ->
    exists Yt c h lo0 hi0 lo1 hi1 st0 st1,
      persistence_image_transform gauss weight_function sigma n_bins n_jobs X Y = Ok Yt /\ py_get Yt i = Ok c /\
      plot_persistence_image (map fst g) (map (fun e => (fst e, (fst (fst (snd e)), fst (snd (snd e))))) g) c idx = Ok h /\
      h_reversed h = false /\ step0 = Fin st0 /\ step1 = Fin st1 /\
      Znth s0 0 = Some lo0 /\ Znth s0 (n_bins - 1) = Some hi0 /\ Znth s1 0 = Some lo1 /\ Znth s1 (n_bins - 1) = Some hi1 /\
      (st0 = 0%Qc \/ st1 = 0%Qc -> forall u v t, drawn_at h u v t -> t = 0%Qc) /\
      ((0 < st0)%Qc -> (0 < st1)%Qc -> exists raster, has_shape n_bins n_bins raster /\
         (forall a b w, 0 <= a < n_bins -> 0 <= b < n_bins -> Znth (weight_function s1) b = Some w ->
            entry raster a b = Some (qz (pi_count lo0 hi0 st0 lo1 hi1 st1 a b (points_of q y)) * w)%Qc) /\
         forall a b u v, Znth s0 a = Some u -> Znth s1 b = Some v -> exists w,
           entry (gauss (sigma / st0, sigma / st1)%Qc raster) a b = Some w /\
           forall t, drawn_at h u v t <-> t = (w / (st0 * st1))%Qc).
Proof.
  intros HK HW Hn HT HQ. destruct (fit_ok true n_bins X ltac:(lia) HT) as [dims [g [D1 [D2 [D3 [D4 [D5 [D6 D7]]]]]]]]. subst dims.
  assert (HG : fitted_grids2 n_bins X g).
  { split; [assumption|]. intros q s0 t0 s1 t1 H. destruct (D7 _ _ _ H) as [A _]. now apply A. }
  exists g. split; [assumption|]. split; [assumption|]. split; [unfold fit_samplings2; rewrite D1; cbn [bind]; rewrite D5; reflexivity|].
  intros n_jobs Y i y idx j q s0 step0 s1 step1 HJ HY Hi Hj Hidx. destruct (persistence_image_spec gauss weight_function sigma n_bins X HK HW Hn HT) as [g' [HG' HB]].
  rewrite (fitted_grids2_unique n_bins X g' g ltac:(lia) HG' HG) in HB. clear g' HG'. destruct (HB n_jobs Y HJ HY) as [R [ER FR]].
  assert (LS : zlen Y = zlen R) by exact (Forall2_zlen _ _ _ FR).
  destruct (Znth_ex R i) as [c Ec]; [rewrite <- LS; now apply Znth_Some_lt in Hi|].
  pose proof (Forall2_Znth _ _ _ i _ _ FR Hi Ec) as FC. cbn beta in FC.
  assert (LC : zlen g = zlen c) by exact (Forall2_zlen _ _ _ FC).
  destruct (Znth_ex c j) as [z Ez]; [rewrite <- LC; now apply Znth_Some_lt in Hj|].
  destruct (Forall2_Znth _ _ _ j _ _ FC Hj Ez) as [lo0 [hi0 [lo1 [hi1 [st0 [st1 [Z00 [Z01 [Z10 [Z11 [Es0 [Es1 HH]]]]]]]]]]]]. cbn [fst snd] in *.
  assert (Iq : In q (map fst g)) by (apply in_map_iff; exists (q, ((s0, step0), (s1, step1))); split; [reflexivity|now apply Znth_In in Hj]).
  assert (Hq : exists nm, named q nm) by (apply HQ; apply HG; assumption). destruct Hq as [nm Hq].
  assert (Hd : dict_get (map (fun e => (fst e, (fst (fst (snd e)), fst (snd (snd e))))) g) q = Ok (s0, s1)).
  { apply increasing_keys; rewrite ?map_map; try assumption; [apply D3|]. apply in_map_iff. exists (q, ((s0, step0), (s1, step1))). split; [reflexivity|]. now apply Znth_In in Hj. }
  exists R, c, (plot_heatmap z (Some s0) (Some (rev s1)) Lower), lo0, hi0, lo1, hi1, st0, st1. split; [assumption|].
  pose proof (Znth_Some_lt _ _ _ Hi). split; [apply py_get_in; [lia|assumption]|]. split.
  { unfold plot_persistence_image. rewrite (py_get_wrap (map fst g) j idx q) by (rewrite ?Znth_map, ?Hj, ?zlen_map; auto). cbn [bind].
    rewrite (int_label_ok q nm Hq). cbn [bind]. rewrite Hd. cbn [bind]. rewrite (py_get_wrap c j idx z) by (rewrite <- ?LC; auto). reflexivity. }
  split; [reflexivity|]. do 6 (split; [assumption|]).
  assert (GR : is_grid lo0 hi0 n_bins s0 (Fin st0) /\ is_grid lo1 hi1 n_bins s1 (Fin st1)).
  { destruct (proj2 HG q s0 step0 s1 step1) as [G0 G1]; [now apply Znth_In in Hj|]. split.
    - destruct (grid_lo_hi (fun q => birth_value q X) (map fst g) n_bins q s0 step0) as [lo' [hi' [st' [A1 [A2 [A3 [_ A4]]]]]]]; [assumption|exists q; auto|assumption|].
      assert (lo' = lo0) by congruence. assert (hi' = hi0) by congruence. assert (st' = st0) by congruence. now subst.
    - destruct (grid_lo_hi (fun q => lifetime_value q X) (map fst g) n_bins q s1 step1) as [lo' [hi' [st' [A1 [A2 [A3 [_ A4]]]]]]]; [assumption|exists q; auto|assumption|].
      assert (lo' = lo1) by congruence. assert (hi' = hi1) by congruence. assert (st' = st1) by congruence. now subst. }
  destruct GR as [GR0 GR1].
  assert (Ls0 : zlen s0 = n_bins) by apply GR0. assert (Ls1 : zlen s1 = n_bins) by apply GR1. destruct HH as [SH [H0 HP]]. split.
  - intros E u v t [xs [ys [r [cc [_ [[= <-] [Hc [Hr Ht]]]]]]]]. cbn [h_z plot_heatmap] in Ht. pose proof (Znth_Some_lt _ _ _ Hr) as Br. rewrite zlen_rev in Br.
    assert (Bc : 0 <= cc < n_bins).
    { unfold entry in Ht. destruct (Znth z r) as [row|] eqn:Er; [|discriminate]. apply Znth_Some_lt in Ht. apply Znth_In in Er. now rewrite (proj2 SH row Er) in Ht. }
    rewrite H0 in Ht by (auto; lia). congruence.
  - intros Hst0 Hst1. destruct (HP Hst0 Hst1) as [ra [SR [HR HE]]]. exists ra. split; [assumption|]. split; [assumption|]. intros a b u v Ha Hb.
    pose proof (Znth_Some_lt _ _ _ Ha) as Ba. pose proof (Znth_Some_lt _ _ _ Hb) as Bb. destruct (HE (n_bins - 1 - b) a ltac:(lia) ltac:(lia)) as [w [A1 A2]].
    replace (n_bins - 1 - (n_bins - 1 - b)) with b in * by lia. exists w. split; [assumption|].
    apply (drawn_rev z s0 s1 a b u v _ n_bins Ls1); try assumption; intros i1 i2 x.
    + apply (grid_inj lo0 hi0 n_bins s0 st0); try assumption; lia.
    + apply (grid_inj lo1 hi1 n_bins s1 st1); try assumption; lia.
Qed.
