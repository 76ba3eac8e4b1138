(** Theorems about plots of persistence diagrams: C68. *)
From Verif Require Import Np NpFacts Fl FlFacts DiagTypes DiagModel DiagSpec DiagProofs DiagProofs2 DiagProofs3
  VecModel VecSpec VecProofs2 VecProofs4 PlotTypes PlotModel PlotSpec.
Open Scope Z_scope.

Lemma py_int_fz k : py_int (fz k) = Ok k.
Proof.
  unfold py_int, fz. cbn [Qcanon.this Q2Qc]. assert (E : Qred (inject_Z k) = inject_Z k).
  { unfold inject_Z, Qred. pose proof (Z.ggcd_gcd k 1) as G. pose proof (Z.ggcd_correct_divisors k 1) as D.
    destruct (Z.ggcd k 1) as [g [a b]]. cbn [fst snd] in *. rewrite Z.gcd_1_r in G. subst g. destruct D as [D1 D2].
    assert (Ea : a = k) by lia. assert (Eb : b = 1) by lia. clear D1 D2. now rewrite Ea, Eb. }
  rewrite E. cbn [inject_Z Qnum Qden]. now rewrite Z.quot_1_r.
Qed.

Lemma increasing_unique l l' : increasing l -> increasing l' -> (forall q, In q l <-> In q l') -> l = l'.
Proof.
  revert l'. induction l as [|x l IH]; intros [|y l'] H H' E; [reflexivity| | |].
  - destruct (proj2 (E y)); now left.
  - destruct (proj1 (E x)); now left.
  - apply increasing_inv in H, H'. destruct H as [H1 H2], H' as [H1' H2'].
    assert (x = y).
    { destruct (proj1 (E x) (or_introl eq_refl)) as [|Hx]; [auto|]. destruct (proj2 (E y) (or_introl eq_refl)) as [|Hy]; [auto|].
      specialize (H2 _ Hy). specialize (H2' _ Hx). pose proof (flt_trans _ _ _ H2 H2') as F. now rewrite flt_irrefl in F. }
    subst y. f_equal. apply IH; try assumption. intros q. split; intros Hq.
    + destruct (proj1 (E q) (or_intror Hq)) as [<-|]; [|assumption]. apply H2 in Hq. now rewrite flt_irrefl in Hq.
    + destruct (proj2 (E q) (or_intror Hq)) as [<-|]; [|assumption]. apply H2' in Hq. now rewrite flt_irrefl in Hq.
Qed.

Lemma copies_filter p x : copies p x = zlen (filter (row_eqb p) x).
Proof.
  induction x as [|p' x IH]; [reflexivity|]. cbn [copies filter]. rewrite IH. unfold row_eqb at 2.
  destruct (feq (pb p) (pb p') && feq (pd p) (pd p') && feq (pq p) (pq p')); [rewrite zlen_cons|]; lia.
Qed.
Lemma row_eqb_eq p p' : row_eqb p p' = true -> p = p'.
Proof.
  unfold row_eqb. intros H. apply andb_prop in H. destruct H as [H C]. apply andb_prop in H. destruct H as [A B].
  apply feq_eq in A, B, C. destruct p, p'. cbn in *. congruence.
Qed.

Definition off (x : diagram) := filter (fun p => negb (feq (pb p) (pd p))) x.
Lemma shown_off q x : filter (fun p => feq (pq p) q) (off x) = shown_rows q x.
Proof. unfold off, shown_rows. rewrite filter_filter. apply filter_ext. intros p. apply andb_comm. Qed.
Lemma row_count_copies q x p : In p (shown_rows q x) -> row_count p (shown_rows q x) = copies p x.
Proof.
  intros Hp. rewrite copies_filter. unfold row_count, shown_rows. rewrite filter_filter. f_equal. apply filter_ext.
  intros p'. destruct (row_eqb p p') eqn:E; [|now rewrite andb_false_r]. rewrite andb_true_r. apply row_eqb_eq in E. subst p'.
  apply filter_In in Hp. apply Hp.
Qed.

Lemma drawable_plottable x : drawable x -> plottable x.
Proof.
  intros HD. split.
  - intros p Hp. destruct (HD p Hp) as [B D]. split; [right; exact B|exact D].
  - intros [p [Hp Hne]]. destruct (HD p Hp) as [[b B] _]. exists b, p. auto.
Qed.
Lemma off_coord x v : plottable x -> off_diagonal_coordinate x v <->
  In (Fin v) (flat_map (fun p => [pb p; pd p]) (off x)).
Proof.
  intros HD. split.
  - intros [p [Hp [Hne H]]]. apply in_flat_map. exists p. split.
    + apply filter_In. split; [assumption|]. destruct (feq (pb p) (pd p)) eqn:E; [|reflexivity]. apply feq_eq in E. easy.
    + destruct H as [<-|<-]; [now left|right; now left].
  - intros H. apply in_flat_map in H. destruct H as [p [Hp H]]. apply filter_In in Hp. destruct Hp as [Hp E]. exists p.
    split; [assumption|]. split.
    + intros F. destruct (proj1 HD p Hp) as [[Eb|[b Eb]] Ed]; rewrite <- F, Eb in E; [|now rewrite feq_refl in E by reflexivity].
      rewrite <- F, Eb in Ed. destruct Ed as [|[d ?]]; discriminate.
    + destruct H as [H|[H|[]]]; auto.
Qed.

(** The extent computed by the model. *)
Lemma extent_ok x : plottable x -> exists lo hi, is_extent x lo hi /\ (lo <= hi)%Qc /\
  let e := flat_map (fun p => [pb p; pd p]) (off x) in
  (if 0 <? zlen e then np_max (map (fun v => if isposinf v then NInf else v) e) else Ok f1) = Ok (Fin hi) /\
  (if 0 <? zlen e then np_min (map (fun v => if isneginf v then PInf else v) e) else Ok f0) = Ok (Fin lo).
Proof.
  intros HD. cbv zeta. set (e := flat_map _ (off x)).
  assert (HE : forall v, In v e -> v = NInf \/ v = PInf \/ exists q, v = Fin q).
  { intros v Hv. apply in_flat_map in Hv. destruct Hv as [p [Hp Hv]]. apply filter_In in Hp. destruct (proj1 HD p (proj1 Hp)) as [[Eb|Eb] Ed];
    destruct Hv as [<-|[<-|[]]]; destruct Ed; auto. }
  destruct (off x) as [|p0 o] eqn:Eo.
  - exists 0%Qc, 1%Qc. subst e. cbn [flat_map]. change (0 <? zlen (@nil fl)) with false. split; [|split; [qlra|split; reflexivity]].
    right. split; [|auto]. intros v Hv. apply off_coord in Hv; [|assumption]. rewrite Eo in Hv. destruct Hv.
  - assert (H0 : In p0 (off x)) by (rewrite Eo; now left). apply filter_In in H0. destruct H0 as [H0 _].
    assert (exists b0, In (Fin b0) e) as [b0 Hb0].
    { destruct (proj2 HD) as [b0 Hb0].
      - exists p0. split; [assumption|]. intros F. assert (N : In p0 (off x)) by (rewrite Eo; now left). apply filter_In in N. destruct N as [_ N].
        destruct (proj1 HD p0 H0) as [[Eb|[b Eb]] Ed]; rewrite <- F, Eb in *; [destruct Ed as [|[d ?]]; discriminate|]. now rewrite feq_refl in N by reflexivity.
      - exists b0. apply off_coord in Hb0; [|assumption]. rewrite Eo in Hb0. exact Hb0. }
    assert (HL : 0 <? zlen e = true) by (subst e; cbn [flat_map app]; rewrite zlen_cons; apply Z.ltb_lt; pose proof (zlen_nonneg ([pd p0] ++ flat_map (fun p => [pb p; pd p]) o)); cbn [app] in *; lia).
    rewrite HL.
    assert (Hne : e <> []) by (intros E; rewrite E in Hb0; destruct Hb0).
    assert (HC : forall v, off_diagonal_coordinate x v <-> In (Fin v) e) by (intros v; rewrite off_coord by assumption; rewrite Eo; reflexivity).
    destruct (np_max_spec (map (fun v => if isposinf v then NInf else v) e)) as [M [EM [IM GM]]].
    { now destruct e. } { intros y Hy. apply in_map_iff in Hy. destruct Hy as [v [<- Hv]]. destruct (HE v Hv) as [->|[->|[q ->]]]; reflexivity. }
    destruct (np_min_spec (map (fun v => if isneginf v then PInf else v) e)) as [m [Em [Im Lm]]].
    { now destruct e. } { intros y Hy. apply in_map_iff in Hy. destruct Hy as [v [<- Hv]]. destruct (HE v Hv) as [->|[->|[q ->]]]; reflexivity. }
    assert (FM : exists hi, M = Fin hi /\ In (Fin hi) e).
    { apply in_map_iff in IM. destruct IM as [v [<- Hv]]. destruct (HE v Hv) as [->|[->|[q ->]]]; [| |exists q; auto];
      assert (C : fle (Fin b0) NInf = true) by (apply GM; apply in_map_iff; exists (Fin b0); auto); discriminate. }
    assert (Fm : exists lo, m = Fin lo /\ In (Fin lo) e).
    { apply in_map_iff in Im. destruct Im as [v [<- Hv]]. destruct (HE v Hv) as [->|[->|[q ->]]]; [| |exists q; auto];
      assert (C : fle PInf (Fin b0) = true) by (apply Lm; apply in_map_iff; exists (Fin b0); auto); discriminate. }
    destruct FM as [hi [-> Ihi]], Fm as [lo [-> Ilo]].
    assert (Ghi : forall w, In (Fin w) e -> (w <= hi)%Qc).
    { intros w Hw. apply Qcleb_le. apply (GM (Fin w)). apply in_map_iff. exists (Fin w). auto. }
    assert (Llo : forall w, In (Fin w) e -> (lo <= w)%Qc).
    { intros w Hw. apply Qcleb_le. apply (Lm (Fin w)). apply in_map_iff. exists (Fin w). auto. }
    exists lo, hi. split; [|split; [now apply Llo|split; assumption]]. left. split; split.
    + now apply HC.
    + intros w Hw. apply HC in Hw. now apply Llo.
    + now apply HC.
    + intros w Hw. apply HC in Hw. now apply Ghi.
Qed.

Lemma is_extent_unique x lo hi lo' hi' : is_extent x lo hi -> is_extent x lo' hi' -> lo = lo' /\ hi = hi'.
Proof.
  intros [[A B]|[A [-> ->]]] [[A' B']|[A' [-> ->]]].
  - split; [eapply is_least_unique|eapply is_greatest_unique]; eassumption.
  - destruct A as [A _]. now apply A' in A.
  - destruct A' as [A' _]. now apply A in A'.
  - auto.
Qed.

Lemma has_infinite_ok x : plottable x ->
  has_infinite_point x <-> existsb (fun p => isposinf (pd p)) (off x) = true.
Proof.
  intros HD. rewrite existsb_exists. split.
  - intros [p [Hp E]]. exists p. rewrite E. split; [|reflexivity]. apply filter_In. split; [assumption|].
    destruct (proj1 HD p Hp) as [[Eb|[b Eb]] _]; rewrite Eb, E; reflexivity.
  - intros [p [Hp E]]. apply filter_In in Hp. exists p. split; [apply Hp|]. destruct (pd p); easy.
Qed.

Lemma plot_dim_ok x has top q n : named q n -> plottable x -> (has = true <-> has_infinite_point x) ->
  exists t, plot_dim (off x) has (Fin top) q = Ok t /\ shows x top q t.
Proof.
  intros HN HD HH. unfold plot_dim. rewrite shown_off.
  assert (E : (if negb (feq q PInf) then rmap HName (py_int q) else Ok AnyDimension) = Ok n).
  { destruct HN as [[-> ->]|[k [-> ->]]]; [reflexivity|]. rewrite py_int_fz. reflexivity. }
  rewrite E. cbn [bind]. eexists. split; [reflexivity|]. exists n. split; [assumption|]. f_equal.
  - transitivity (map (fun d => match d with PInf => Fin top | d => d end) (map pd (shown_rows q x))); [|rewrite map_map; apply map_ext; intros p; now destruct (pd p)]. destruct has.
    + apply map_ext. intros []; reflexivity.
    + symmetry. rewrite <- (map_id (map pd (shown_rows q x))) at 2. apply map_ext_in. intros d Hd. apply in_map_iff in Hd. destruct Hd as [p [<- Hp]].
      apply filter_In in Hp. destruct Hp as [Hp _]. destruct (pd p) eqn:Ed; try reflexivity.
      assert (C : false = true) by (apply HH; exists p; auto). discriminate.
  - apply map_ext_in. intros p Hp. now rewrite row_count_copies.
Qed.


(** ** C68: the figure of a diagram, exactly. *)
Theorem plot_diagram_spec x given dims :
  plottable x -> requested x given dims -> (forall q, In q dims -> exists n, named q n) ->
  exists lo hi, is_extent x lo hi /\ (lo <= hi)%Qc /\
    let span := (hi - lo)%Qc in
    let top := (hi + span / qz 10)%Qc in
    exists margin markers,
      (has_infinite_point x -> margin = (qz 12 / qz 100 * span)%Qc) /\
      (~ has_infinite_point x -> margin = (qz 2 / qz 100 * span)%Qc) /\
      Forall2 (shows x top) dims markers /\
      let a := Fin (lo - margin)%Qc in
      let b := Fin (hi + margin)%Qc in
      exists last,
        (has_infinite_point x -> last = [Infinity a b (Fin top)]) /\
        (~ has_infinite_point x -> last = []) /\
        plot_diagram x given = Ok (Figure (a, b) (Diagonal a b :: markers ++ last)).
Proof.
  intros HD HR HN. destruct (extent_ok x HD) as [lo [hi [HE [Hle [EM Em]]]]]. exists lo, hi.
  split; [assumption|]. split; [assumption|]. cbv zeta.
  set (has := existsb (fun p => isposinf (pd p)) (off x)).
  assert (HH : has = true <-> has_infinite_point x) by (symmetry; now apply has_infinite_ok).
  set (top := (hi + (hi - lo) / qz 10)%Qc).
  exists ((if has then qz 12 / qz 100 else qz 2 / qz 100) * (hi - lo))%Qc.
  assert (ED : match given with None => np_unique (map pq x) | Some l => l end = dims).
  { destruct given as [l|]; cbn [requested] in HR; [easy|]. destruct HR as [HI HM].
    assert (NN : forall q, In q (map pq x) -> isnan q = false).
    { intros q Hq. apply HM in Hq. destruct (HN q Hq) as [n [[-> _]|[k [-> _]]]]; reflexivity. }
    apply increasing_unique; [now apply np_unique_inc|assumption|]. intros q. rewrite np_unique_In by assumption. now rewrite HM. }
  assert (MM : exists markers, mapM (plot_dim (off x) has (Fin top)) dims = Ok markers /\ Forall2 (shows x top) dims markers).
  { clear HR ED. induction dims as [|q dims IH]; [exists []; auto|].
    destruct (HN q (or_introl eq_refl)) as [n Hn]. destruct (plot_dim_ok x has top q n Hn HD HH) as [t [Et St]].
    destruct IH as [ms [Em' Hms]]; [intros; apply HN; now right|]. exists (t :: ms). cbn [mapM]. rewrite Et. cbn [bind]. rewrite Em'. split; [reflexivity|]. now constructor. }
  destruct MM as [markers [EMK HMK]]. exists markers.
  split; [intros Hi; apply HH in Hi; now rewrite Hi|].
  split; [intros Hi; destruct has; [exfalso; apply Hi; now apply HH|reflexivity]|].
  split; [assumption|].
  eexists. split; [|split]; [| |].
  3:{ unfold plot_diagram. fold (off x). rewrite ED, EM, Em. cbn [bind]. fold has.
      assert (T : fadd (Fin hi) (fmul (dec 1 10) (fsub (Fin hi) (Fin lo))) = Fin top).
      { cbn. f_equal. unfold top. f_equal. replace (hi + - lo)%Qc with (hi - lo)%Qc by ring. unfold Qcdiv. rewrite Qcmult_comm. f_equal. }
      rewrite T. rewrite EMK. cbn [bind].
      assert (S : fmul (if has then fadd (dec 2 100) (dec 1 10) else dec 2 100) (fsub (Fin hi) (Fin lo)) =
                  Fin ((if has then qz 12 / qz 100 else qz 2 / qz 100) * (hi - lo))).
      { destruct has; cbn; f_equal; f_equal; now apply Qc_is_canon. }
      rewrite S. cbn [fsub fadd fopp]. reflexivity. }
  - intros Hi. apply HH in Hi. rewrite Hi. reflexivity.
  - intros Hi. destruct has; [exfalso; apply Hi; now apply HH|]. reflexivity.
Qed.

(** Everything drawn lies inside the axes. *)
Lemma shown_In q x p : In p (shown_rows q x) -> In p x /\ pq p = q /\ feq (pb p) (pd p) = false.
Proof.
  intros H. apply filter_In in H. destruct H as [H E]. apply andb_prop in E. destruct E as [E F]. apply feq_eq in E.
  destruct (feq (pb p) (pd p)); auto.
Qed.
Lemma off_ne p b : pb p = Fin b -> feq (pb p) (pd p) = false -> pb p <> pd p.
Proof. intros Eb F E. rewrite <- E, Eb, feq_refl in F by reflexivity. discriminate. Qed.
Lemma extent_bounds x lo hi v : is_extent x lo hi -> off_diagonal_coordinate x v -> (lo <= v)%Qc /\ (v <= hi)%Qc.
Proof. intros [[[_ A] [_ B]]|[A _]] H; [split; [now apply A|now apply B]|now apply A in H]. Qed.

Theorem plot_diagram_inside x given dims fig :
  drawable x -> requested x given dims -> (forall q, In q dims -> exists n, named q n) ->
  plot_diagram x given = Ok fig ->
  exists a b, f_range fig = (Fin a, Fin b) /\ (a <= b)%Qc /\
    (forall t, In t (f_traces fig) ->
       match t with
       | Diagonal u v => u = Fin a /\ v = Fin b
       | Markers _ xs ys _ => zlen xs = zlen ys /\ forall v, In v xs \/ In v ys ->
           exists r, v = Fin r /\ (a <= r)%Qc /\ (r <= b)%Qc
       | Infinity u v y => u = Fin a /\ v = Fin b /\ exists r, y = Fin r /\ (a <= r)%Qc /\ (r <= b)%Qc
       end).
Proof.
  intros HD HR HN HF. destruct (plot_diagram_spec x given dims (drawable_plottable _ HD) HR HN) as [lo [hi [HE [Hle [margin [ms [M1 [M2 [FM [last [L1 [L2 E]]]]]]]]]]]].
  rewrite HF in E. injection E as ->. cbn [f_range f_traces]. set (top := (hi + (hi - lo) / qz 10)%Qc) in *.
  assert (T10 : top = (hi + Q2Qc (1 # 10) * (hi - lo))%Qc).
  { unfold top. f_equal. unfold Qcdiv. rewrite Qcmult_comm. f_equal. }
  exists (lo - margin)%Qc, (hi + margin)%Qc. split; [reflexivity|].
  assert (DI : has_infinite_point x \/ ~ has_infinite_point x).
  { rewrite (has_infinite_ok x (drawable_plottable _ HD)). destruct (existsb _ (off x)); auto. }
  assert (C12 : (qz 12 / qz 100)%Qc = Q2Qc (12 # 100)) by now apply Qc_is_canon.
  assert (C2 : (qz 2 / qz 100)%Qc = Q2Qc (2 # 100)) by now apply Qc_is_canon.
  assert (S0 : (0 <= hi - lo)%Qc) by qlra.
  assert (K : forall r, (0 <= r)%Qc -> (0 <= r * (hi - lo))%Qc).
  { intros r Hr. rewrite <- (Qcmult_0_l (hi - lo)). apply Qcmult_le_compat_r; assumption. }
  assert (M0 : (0 <= margin)%Qc).
  { destruct DI as [H|H]; [rewrite (M1 H), C12|rewrite (M2 H), C2]; apply K; discriminate. }
  assert (TB : has_infinite_point x -> (lo - margin <= top)%Qc /\ (top <= hi + margin)%Qc).
  { intros H. rewrite (M1 H), C12, T10. pose proof (K (Q2Qc (2 # 100)) ltac:(discriminate)) as K1. pose proof (K (Q2Qc (1 # 10)) ltac:(discriminate)) as K2.
    assert (EQ : (Q2Qc (12 # 100) * (hi - lo))%Qc = (Q2Qc (2 # 100) * (hi - lo) + Q2Qc (1 # 10) * (hi - lo))%Qc).
    { rewrite <- Qcmult_plus_distr_l. f_equal. now apply Qc_is_canon. }
    rewrite EQ. set (u := (Q2Qc (2 # 100) * (hi - lo))%Qc) in *. set (w := (Q2Qc (1 # 10) * (hi - lo))%Qc) in *. split; qlra. }
  split; [qlra|]. intros t [<-|Ht]; [auto|]. apply in_app_or in Ht. destruct Ht as [Ht|Ht].
  - apply In_Znth in Ht. destruct Ht as [i [Hi Ei]]. rewrite <- (Forall2_zlen _ _ _ FM) in Hi. destruct (Znth_ex dims i Hi) as [q Eq].
    destruct (Forall2_Znth _ _ _ i _ _ FM Eq Ei) as [n [Hn ->]]. split; [now rewrite !zlen_map|]. intros v [Hv|Hv]; apply in_map_iff in Hv; destruct Hv as [p [<- Hp]];
      apply shown_In in Hp; destruct Hp as [Hp [Hq Hoff]]; destruct (HD p Hp) as [[b Eb] Ed].
    + exists b. split; [assumption|]. destruct (extent_bounds x lo hi b HE) as [B1 B2]; [exists p; pose proof (off_ne p b Eb Hoff); auto|]. split; qlra.
    + destruct Ed as [Ed|[d Ed]].
      * rewrite Ed. exists top. split; [reflexivity|]. apply TB. exists p. auto.
      * rewrite Ed. exists d. split; [reflexivity|]. destruct (extent_bounds x lo hi d HE) as [B1 B2]; [exists p; pose proof (off_ne p b Eb Hoff); auto|]. split; qlra.
  - destruct DI as [H|H]; [|rewrite (L2 H) in Ht; destruct Ht]. rewrite (L1 H) in Ht. destruct Ht as [<-|[]].
    split; [reflexivity|]. split; [reflexivity|]. exists top. split; [reflexivity|]. now apply TB.
Qed.

(** Points that never die are told apart from all others: when the off-diagonal
    points have two different finite coordinates, the height used for infinite
    deaths is strictly above every finite coordinate and strictly inside the
    figure, is marked by a line, and only infinite deaths are drawn there. *)
Theorem plot_diagram_infinite_apart x given dims fig :
  drawable x -> requested x given dims -> (forall q, In q dims -> exists n, named q n) ->
  plot_diagram x given = Ok fig -> has_infinite_point x ->
  (exists v w, off_diagonal_coordinate x v /\ off_diagonal_coordinate x w /\ v <> w) ->
  exists top a b, f_range fig = (a, Fin b) /\ (top < b)%Qc /\
    (forall v, off_diagonal_coordinate x v -> (v < top)%Qc) /\
    In (Infinity a (Fin b) (Fin top)) (f_traces fig) /\
    forall n xs ys hs i y h, In (Markers n xs ys hs) (f_traces fig) ->
      Znth ys i = Some y -> Znth hs i = Some h ->
      (y = Fin top <-> hv_death h = PInf) /\ (hv_death h <> PInf -> y = hv_death h).
Proof.
  intros HD HR HN HF Hinf [v1 [v2 [Hv1 [Hv2 Hne]]]].
  destruct (plot_diagram_spec x given dims (drawable_plottable _ HD) HR HN) as [lo [hi [HE [Hle [margin [ms [M1 [M2 [FM [last [L1 [L2 E]]]]]]]]]]]].
  rewrite HF in E. injection E as ->. cbn [f_range f_traces]. set (top := (hi + (hi - lo) / qz 10)%Qc) in *.
  assert (T10 : top = (hi + Q2Qc (1 # 10) * (hi - lo))%Qc).
  { unfold top. f_equal. unfold Qcdiv. rewrite Qcmult_comm. f_equal. }
  assert (C12 : (qz 12 / qz 100)%Qc = Q2Qc (12 # 100)) by now apply Qc_is_canon.
  assert (S0 : (lo < hi)%Qc).
  { destruct (extent_bounds _ _ _ _ HE Hv1) as [A1 A2], (extent_bounds _ _ _ _ HE Hv2) as [B1 B2].
    apply Qcnot_le_lt. intros C. apply Hne. apply Qcle_antisym; qlra. }
  assert (K : forall r, (0 < r)%Qc -> (0 < r * (hi - lo))%Qc).
  { intros r Hr. rewrite <- (Qcmult_0_l (hi - lo)). apply Qcmult_lt_compat_r; [qlra|assumption]. }
  pose proof (K (Q2Qc (2 # 100)) ltac:(reflexivity)) as K1. pose proof (K (Q2Qc (1 # 10)) ltac:(reflexivity)) as K2.
  assert (EQ : (Q2Qc (12 # 100) * (hi - lo))%Qc = (Q2Qc (2 # 100) * (hi - lo) + Q2Qc (1 # 10) * (hi - lo))%Qc).
  { rewrite <- Qcmult_plus_distr_l. f_equal. now apply Qc_is_canon. }
  assert (AB : forall v, off_diagonal_coordinate x v -> (v < top)%Qc).
  { intros v Hv. destruct (extent_bounds _ _ _ _ HE Hv) as [_ B]. rewrite T10. set (w := (Q2Qc (1 # 10) * (hi - lo))%Qc) in *. qlra. }
  exists top, (Fin (lo - margin)), (hi + margin)%Qc. split; [reflexivity|]. split.
  { rewrite (M1 Hinf), C12, EQ, T10. set (u := (Q2Qc (2 # 100) * (hi - lo))%Qc) in *. set (w := (Q2Qc (1 # 10) * (hi - lo))%Qc) in *. qlra. }
  split; [assumption|]. split; [rewrite (L1 Hinf); right; apply in_or_app; right; now left|].
  intros n xs ys hs i y h Ht Hy Hh. destruct Ht as [Ht|Ht]; [discriminate|]. apply in_app_or in Ht. destruct Ht as [Ht|Ht].
  2:{ rewrite (L1 Hinf) in Ht. destruct Ht as [Ht|[]]. discriminate. }
  apply In_Znth in Ht. destruct Ht as [j [Hj Ej]]. rewrite <- (Forall2_zlen _ _ _ FM) in Hj. destruct (Znth_ex dims j Hj) as [q Eq].
  destruct (Forall2_Znth _ _ _ j _ _ FM Eq Ej) as [n' [Hn E]]. injection E as -> -> -> ->.
  rewrite Znth_map in Hy. rewrite Znth_map in Hh. destruct (Znth (shown_rows q x) i) as [p|] eqn:Ep; [|discriminate]. cbn in Hy, Hh. injection Hy as <-. injection Hh as <-. cbn [hv_death].
  apply Znth_In in Ep. apply shown_In in Ep. destruct Ep as [Hp [_ Hoff]]. destruct (HD p Hp) as [[b Eb] [Ed|[d Ed]]]; rewrite Ed.
  - split; [tauto|easy].
  - split; [|auto]. split; [|easy]. intros E. assert (d = top) by congruence. subst d.
    assert (C : (top < top)%Qc) by (apply AB; exists p; pose proof (off_ne p b Eb Hoff); auto). exfalso. qlra.
Qed.

(** Without two different coordinates this fails (finding): a single point born
    at 0 that never dies is drawn on the diagonal, in a figure of extent zero. *)
Theorem plot_diagram_infinite_apart_refuted :
  exists x fig, drawable x /\ has_infinite_point x /\ plot_diagram x None = Ok fig /\
    f_range fig = (Fin 0%Qc, Fin 0%Qc) /\
    exists n hs, In (Markers n [Fin 0%Qc] [Fin 0%Qc] hs) (f_traces fig).
Proof.
  exists [Pt (Fin 0%Qc) PInf (fz 0)]. set (x := [_]).
  assert (HD : drawable x) by (intros p [<-|[]]; split; [exists 0%Qc; reflexivity|left; reflexivity]).
  assert (HI : has_infinite_point x) by (eexists; split; [now left|reflexivity]).
  destruct (plot_diagram_spec x None [fz 0]) as [lo [hi [HE [Hle [margin [ms [M1 [M2 [FM [last [L1 [L2 E]]]]]]]]]]]].
  - now apply drawable_plottable.
  - split; [apply increasing_cons; [apply increasing_nil|easy]|]. intros q. reflexivity.
  - intros q [<-|[]]. exists (HName 0). right. exists 0. auto.
  - assert (lo = 0%Qc /\ hi = 0%Qc) as [-> ->].
    { assert (E0 : is_extent x 0%Qc 0%Qc).
      { left. assert (C : off_diagonal_coordinate x 0%Qc) by (eexists; split; [now left|]; split; [easy|now left]).
        split; (split; [assumption|]); intros w [p [[<-|[]] [_ [F|F]]]]; cbn in F; try discriminate; injection F as <-; apply Qcle_refl. }
      exact (is_extent_unique _ _ _ _ _ HE E0). }
    rewrite E. eexists. split; [assumption|]. split; [assumption|]. split; [reflexivity|]. cbn [f_range f_traces].
    rewrite (M1 HI). assert (Z1 : (0 - qz 12 / qz 100 * (0 - 0))%Qc = 0%Qc) by now apply Qc_is_canon.
    assert (Z2 : (0 + qz 12 / qz 100 * (0 - 0))%Qc = 0%Qc) by now apply Qc_is_canon.
    assert (Z3 : (0 + (0 - 0) / qz 10)%Qc = 0%Qc) by now apply Qc_is_canon.
    rewrite Z1, Z2. split; [reflexivity|]. inversion FM as [|? t ? ? [n [Hn Ht]] F0]; subst. inversion F0; subst.
    rewrite Z3. exists n. eexists. right. apply in_or_app. left. left. reflexivity.
Qed.

(** Only the off-diagonal points of each dimension matter: two arrays with the same
    off-diagonal points in each dimension are drawn alike, so padding with diagonal
    points is invisible. *)
Lemma shown_count x p : In p x -> pq p <> NaN -> feq (pb p) (pd p) = false -> In p (shown_rows (pq p) x).
Proof. intros Hp Hq F. apply filter_In. split; [assumption|]. rewrite F, feq_refl by (destruct (pq p); easy). reflexivity. Qed.

Theorem plot_diagram_ignores_padding x x' given dims :
  drawable x -> drawable x' -> (forall p, In p x \/ In p x' -> pq p <> NaN) ->
  requested x given dims -> requested x' given dims -> (forall q, In q dims -> exists n, named q n) ->
  (forall q, shown_rows q x = shown_rows q x') ->
  plot_diagram x given = plot_diagram x' given.
Proof.
  intros HD HD' HQ HR HR' HN HS.
  destruct (plot_diagram_spec x given dims (drawable_plottable _ HD) HR HN) as [lo [hi [HE [Hle [margin [ms [M1 [M2 [FM [last [L1 [L2 E]]]]]]]]]]]].
  destruct (plot_diagram_spec x' given dims (drawable_plottable _ HD') HR' HN) as [lo' [hi' [HE' [Hle' [margin' [ms' [M1' [M2' [FM' [last' [L1' [L2' E']]]]]]]]]]]].
  assert (T : forall y y' p, drawable y -> (forall p, In p y -> pq p <> NaN) -> (forall q, shown_rows q y = shown_rows q y') ->
    In p y -> feq (pb p) (pd p) = false -> In p y').
  { intros y y' p _ Hn Hs Hp Hoff. pose proof (shown_count y p Hp (Hn p Hp) Hoff) as A. rewrite Hs in A. now apply shown_In in A. }
  assert (CE : forall y y', drawable y -> (forall p, In p y -> pq p <> NaN) -> (forall q, shown_rows q y = shown_rows q y') ->
    (forall v, off_diagonal_coordinate y v -> off_diagonal_coordinate y' v) /\ (has_infinite_point y -> has_infinite_point y')).
  { intros y y' Hd Hn Hs. split.
    - intros v [p [Hp [Hne Hv]]]. exists p. split; [|auto]. apply (T y y' p Hd Hn Hs Hp).
      destruct (feq (pb p) (pd p)) eqn:F; [|reflexivity]. apply feq_eq in F. easy.
    - intros [p [Hp Hd']]. exists p. split; [|assumption]. apply (T y y' p Hd Hn Hs Hp). rewrite Hd'. destruct (Hd p Hp) as [[b ->] _]. reflexivity. }
  destruct (CE x x' HD ltac:(auto) HS) as [C1 I1]. destruct (CE x' x HD' ltac:(auto) ltac:(intros; symmetry; apply HS)) as [C2 I2].
  assert (HE2 : is_extent x' lo hi).
  { destruct HE as [[[A1 A2] [B1 B2]]|[A [-> ->]]]; [left|right].
    - split; split; auto.
    - split; [|auto]. intros v Hv. apply (A v). auto. }
  destruct (is_extent_unique _ _ _ _ _ HE2 HE') as [<- <-].
  assert (DI : has_infinite_point x \/ ~ has_infinite_point x).
  { rewrite (has_infinite_ok x (drawable_plottable _ HD)). destruct (existsb _ (off x)); auto. }
  assert (EM : margin = margin').
  { destruct DI as [H|H]; [rewrite (M1 H), (M1' (I1 H)); reflexivity|rewrite (M2 H), M2'; [reflexivity|tauto]]. }
  subst margin'.
  assert (EL : last = last').
  { destruct DI as [H|H]; [rewrite (L1 H), (L1' (I1 H)); reflexivity|rewrite (L2 H), L2'; [reflexivity|tauto]]. }
  subst last'. rewrite E, E'. do 4 f_equal. clear - FM FM' HS. revert ms' FM'.
  induction FM as [|q t dims ms Ht _ IH]; intros ms' FM'; inversion FM' as [|? t' ? ms'' Ht' F]; subst; [reflexivity|]. f_equal; [|now apply IH].
  destruct Ht as [n [Hn ->]], Ht' as [n' [Hn' ->]]. rewrite <- (HS q).
  assert (n = n'). { destruct Hn as [[-> ->]|[k [-> ->]]], Hn' as [[E ->]|[k' [E ->]]]; try discriminate; [reflexivity|]. now apply fz_inj in E as ->. }
  subst n'. f_equal. apply map_ext_in. intros p Hp.
  assert (EC : copies p x = copies p x'); [|now rewrite EC].
  rewrite <- (row_count_copies q x p Hp). rewrite HS in Hp |- *. now apply row_count_copies.
Qed.
