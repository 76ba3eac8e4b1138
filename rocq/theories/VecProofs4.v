(** The vectorising transformers: fit then transform. *)
From Coq Require Import Permutation Sorted.
From Verif Require Import Np NpFacts Fl FlFacts DiagTypes DiagModel DiagSpec DiagProofs DiagProofs2
  VecModel VecSpec SliceFacts VecProofs VecProofs2 VecProofs3.
Open Scope Z_scope.

Lemma to_q_points q x : to_q (rows_of q x) = map (fun p => (fin_val (pb p), fin_val (pd p))) (rows_of q x).
Proof. reflexivity. Qed.
Lemma points_of_to_q q Y x : finite_points Y -> In x Y -> to_q (rows_of q x) = points_of q x.
Proof.
  intros HF Hx. unfold to_q, points_of. apply map_ext_in. intros p Hp. destruct (HF x p Hx (rows_of_In _ _ _ Hp)) as [b [d [-> [-> _]]]]. reflexivity.
Qed.

Lemma increasing_keys {S} (g : list (fl * S)) q s : increasing (map fst g) -> (forall q, In q (map fst g) -> isnan q = false) ->
  In (q, s) g -> dict_get g q = Ok s.
Proof.
  induction g as [|[q' s'] g IH]; intros HI HN H; [destruct H|]. cbn [map fst] in HI. apply increasing_inv in HI. destruct HI as [HI HL].
  cbn [dict_get]. destruct H as [E|H].
  - assert (q' = q) by congruence. assert (s' = s) by congruence. subst. now rewrite feq_refl by (apply HN; now left).
  - destruct (feq q' q) eqn:E.
    + apply feq_eq in E. subst q'. assert (F : flt q q = true) by (apply HL; apply in_map_iff; exists (q, s); auto). rewrite flt_irrefl in F. discriminate.
    + apply IH; [assumption| |assumption]. intros; apply HN; now right.
Qed.

Lemma vectorise_dict {V S} (F : S -> list (list (Qc * Qc)) -> res (list V)) (G : S -> list (Qc * Qc) -> V) (g : list (fl * S)) Y n_jobs :
  1 <= n_jobs -> g <> [] -> increasing (map fst g) -> (forall q, In q (map fst g) -> isnan q = false) ->
  transformable (map fst g) Y ->
  (forall q s xs, In (q, s) g -> (exists n, forall x, In x xs -> zlen x = n) -> F s xs = Ok (map (G s) xs)) ->
  vectorise (fun dim batch => do s <- dict_get g dim; F s batch) Y (map fst g) n_jobs =
  Ok (map (fun y => map (fun e => G (snd e) (points_of (fst e) y)) g) Y).
Proof.
  intros HJ Hg HI HN [HY [HF HB]] H. destruct g as [|[q0 s0] g0] eqn:Eg; [easy|]. rewrite <- Eg in *. clear Hg.
  rewrite (vectorise_ok _ (fun q y => match dict_get g q with Ok s => G s (points_of q y) | Err _ => G s0 (points_of q y) end)).
  - f_equal. apply map_ext. intros y. rewrite map_map. apply map_ext_in. intros [q s] He. cbn [fst snd]. now rewrite (increasing_keys g q s).
  - assumption.
  - assumption.
  - rewrite Eg. discriminate.
  - assumption.
  - intros q xs Hq _ Hi. apply in_map_iff in Hq. destruct Hq as [[q' s] [<- He]]. cbn [fst]. rewrite (increasing_keys g q' s) by assumption. cbn [bind].
    rewrite (H q' s) by (try assumption; destruct (HB q' ltac:(apply in_map_iff; exists (q', s); auto)) as [n Hn]; exists n;
      intros x Hx; apply in_map_iff in Hx; destruct Hx as [x' [<- Hx']]; unfold to_q; rewrite zlen_map; apply Hn, Hi, Hx').
    f_equal. rewrite map_map. apply map_ext_in. intros x Hx. f_equal. eapply points_of_to_q; [exact HF|]. now apply Hi.
Qed.

Lemma fit_ok pi n X : 1 <= n -> trainable X ->
  exists dims b, first_dims X = Ok dims /\ dims <> [] /\ dimensions_of X dims /\ (forall q, In q dims -> isnan q = false) /\
    bin_axes pi n dims X = Ok b /\ map fst b = dims /\
    forall q a0 a1, In (q, (a0, a1)) b ->
      (pi = true -> grid_of (fun q => birth_value q X) dims n q (fst a0) (snd a0) /\ grid_of (fun q => lifetime_value q X) dims n q (fst a1) (snd a1)) /\
      (pi = false -> grid_of (fun q => coordinate q X) dims n q (fst a0) (snd a0)).
Proof.
  intros Hn [Hne [HF HB]]. destruct X as [|x0 X0]; [easy|]. cbn [hd] in *. set (X := x0 :: X0) in *.
  set (dims := np_unique (map pq x0)).
  assert (HI : forall q, In q dims <-> In q (map pq x0)) by (intros; apply np_unique_In').
  assert (Hd : dims <> []). { destruct x0 as [|p x0]; [easy|]. intros E. assert (F : In (pq p) dims) by (apply HI; now left). rewrite E in F. destruct F. }
  assert (HR : forall q, In q dims -> balanced q X /\ rows_of q (hd [] X) <> []).
  { intros q Hq. apply HI in Hq. destruct (HB q Hq) as [N B]. split; [assumption|]. cbn [hd X]. apply in_map_iff in Hq. destruct Hq as [p [<- Hp]].
    intros E. assert (F : In p (rows_of (pq p) x0)) by (apply filter_In; split; [assumption|]; now apply feq_refl). rewrite E in F. destruct F. }
  destruct (bin_axes_ok pi n dims X Hn ltac:(discriminate) Hd HF HR) as [b [Eb FB]].
  assert (Ek : map fst b = dims). { clear - FB. induction FB as [|q e ds b [E _] _ IH]; [reflexivity|]. cbn [map]. now rewrite IH, E. }
  exists dims, b. split; [reflexivity|]. split; [assumption|]. split; [split; [apply np_unique_inc; intros q Hq; now apply HB|exact HI]|].
  split; [intros q Hq; apply HI in Hq; now apply HB|]. split; [assumption|]. split; [assumption|].
  intros q a0 a1 He. destruct (In_Znth _ _ He) as [i [Hi Ei]]. assert (Eq : Znth dims i = Some q) by (rewrite <- Ek, Znth_map, Ei; reflexivity).
  destruct (Forall2_Znth _ _ _ i _ _ FB Eq Ei) as [_ [A B]]. cbn [fst snd] in *. split; [assumption|]. intros E. now apply B.
Qed.

Lemma map_not_nil {A B} (f : A -> B) l : map f l <> [] -> l <> [].
Proof. intros H E. now subst. Qed.

Lemma fit_one_axis n X : 1 <= n -> trainable X ->
  exists g, first_dims X = Ok (map fst g) /\ bin n (map fst g) X = Ok g /\ g <> [] /\ fitted_grids n X g /\
    (forall q, In q (map fst g) -> isnan q = false).
Proof.
  intros Hn HT. destruct (fit_ok false n X Hn HT) as [dims [b [E1 [Hd [HD [HN [E2 [Ek HG]]]]]]]].
  exists (map (fun e => (fst e, fst (snd e))) b). rewrite map_map. cbn [fst].
  change (map (fun x => fst x) b) with (map fst b). rewrite Ek. unfold bin. rewrite E2. cbn [bind]. split; [assumption|]. split; [reflexivity|].
  split; [rewrite <- Ek in Hd; destruct b; [easy|discriminate]|]. split; [|assumption]. unfold fitted_grids. rewrite map_map. cbn [fst].
  change (map (fun x => fst x) b) with (map fst b). rewrite Ek. split; [assumption|]. intros q s step H. apply in_map_iff in H.
  destruct H as [[q' [a0 a1]] [E H]]. cbn [fst snd] in E. assert (q' = q) by congruence. assert (a0 = (s, step)) by congruence. subst.
  destruct (HG q (s, step) a1 H) as [_ G]. now apply G.
Qed.

Lemma transformable_ext D D' Y : (forall q, In q D <-> In q D') -> transformable D Y -> transformable D' Y.
Proof. intros E [A [B C]]. repeat split; try assumption. intros q Hq. apply C. now apply E. Qed.

Lemma betti_curve_ok n_bins X : 1 <= n_bins -> trainable X ->
  exists g, fitted_grids n_bins X g /\
    forall n_jobs Y, 1 <= n_jobs -> transformable (map pq (hd [] X)) Y -> betti_curve n_bins n_jobs X Y =
    Ok (map (fun y => map (fun e => map (fun s => alive_count s (points_of (fst e) y)) (fst (snd e))) g) Y).
Proof.
  intros Hn HT. destruct (fit_one_axis n_bins X Hn HT) as [g [E1 [E2 [Hg [HG HN]]]]]. exists g. split; [assumption|]. intros n_jobs Y HJ HY.
  unfold betti_curve. rewrite E1. cbn [bind]. rewrite E2. cbn [bind]. destruct HG as [[HI HK] _].
  apply (vectorise_dict (fun s batch => Ok (betti_curves batch (fst s))) (fun s x => map (fun t => alive_count t x) (fst s))); try assumption.
  - eapply transformable_ext; [|exact HY]. intros q. now rewrite HK.
  - intros q s xs _ _. now rewrite betti_curves_ok.
Qed.

Lemma persistence_landscape_ok partition n_layers n_bins X : is_partition partition -> 1 <= n_layers -> 1 <= n_bins ->
  trainable X ->
  exists g, fitted_grids n_bins X g /\
    forall n_jobs Y, 1 <= n_jobs -> transformable (map pq (hd [] X)) Y -> persistence_landscape partition n_layers n_bins n_jobs X Y =
    Ok (map (fun y => concat (map (fun e => tabZ n_layers (fun k => map (fun s => layer (map (tent s) (points_of (fst e) y)) k) (fst (snd e)))) g)) Y).
Proof.
  intros HP HL Hn HT. destruct (fit_one_axis n_bins X Hn HT) as [g [E1 [E2 [Hg [HG HN]]]]]. exists g. split; [assumption|]. intros n_jobs Y HJ HY.
  unfold persistence_landscape. rewrite E1. cbn [bind]. rewrite E2. cbn [bind]. destruct HG as [[HI HK] _].
  rewrite (vectorise_dict (fun s batch => Ok (landscapes partition batch (fst s) n_layers))
     (fun s x => tabZ n_layers (fun k => map (fun t => layer (map (tent t) x) k) (fst s)))); try assumption.
  - cbn [bind]. now rewrite map_map.
  - eapply transformable_ext; [|exact HY]. intros q. now rewrite HK.
  - intros q s xs _ HU. now rewrite landscapes_ok.
Qed.

Lemma grid_lo_hi P dims n q s step : 2 <= n -> (exists q', In q' dims /\ q' = q) -> grid_of P dims n q s step ->
  exists lo hi st, step = Fin st /\ Znth s 0 = Some lo /\ Znth s (n - 1) = Some hi /\ (lo <= hi)%Qc /\ is_grid lo hi n s (Fin st).
Proof.
  intros Hn [q' [Hq ->]] [lo [hi [[HL [m [HM HR]]] HG]]]. pose proof HG as [_ [Z0 [_ HG']]]. destruct (HG' ltac:(lia)) as [E [Z1 _]].
  exists lo, hi, ((hi - lo) / qz (n - 1))%Qc. subst step. repeat split; try assumption; try (now apply HG).
  destruct HL as [HL1 HL2], HM as [HM1 HM2]. destruct HR as [[_ ->]|[_ [_ HR]]]; [now apply HL2|]. apply HR. exists q. auto.
Qed.

Lemma heats_total gauss n s step sigma : keeps_shape gauss -> 2 <= n ->
  forall lo hi, (lo <= hi)%Qc -> is_grid lo hi n s (Fin step) -> forall xs,
  heats gauss xs s step sigma = Ok (map (fun x => match heat gauss s step sigma x with Ok H => H | Err _ => [] end) xs).
Proof.
  intros HG Hn lo hi Hlh Hgr xs. unfold heats. apply mapM_Ok. intros x _.
  destruct (heat_ok gauss lo hi n s step sigma x HG Hn Hlh Hgr) as [H [-> _]]. reflexivity.
Qed.

Lemma heat_kernel_ok gauss sigma n_bins X : keeps_shape gauss -> 2 <= n_bins -> trainable X ->
  exists g, fitted_grids n_bins X g /\ forall n_jobs Y, 1 <= n_jobs -> transformable (map pq (hd [] X)) Y -> exists R, heat_kernel gauss sigma n_bins n_jobs X Y = Ok R /\
    Forall2 (fun y ims => Forall2 (fun e im => exists lo hi step,
        Znth (fst (snd e)) 0 = Some lo /\ Znth (fst (snd e)) (n_bins - 1) = Some hi /\ snd (snd e) = Fin step /\
        is_heat gauss lo hi n_bins step sigma (points_of (fst e) y) im) g ims) Y R.
Proof.
  intros HGa Hn HT. destruct (fit_one_axis n_bins X ltac:(lia) HT) as [g [E1 [E2 [Hg [HG HN]]]]].
  pose proof HG as [[HI HK] HV].
  assert (GL : forall q s step, In (q, (s, step)) g -> exists lo hi st, step = Fin st /\ Znth s 0 = Some lo /\ Znth s (n_bins - 1) = Some hi /\ (lo <= hi)%Qc /\ is_grid lo hi n_bins s (Fin st)).
  { intros q s step He. apply (grid_lo_hi (fun q => coordinate q X) (map fst g) n_bins q); [assumption| |now apply HV].
    exists q. split; [|reflexivity]. apply in_map_iff. exists (q, (s, step)). auto. }
  set (Gf := fun (s : list Qc * fl) x => match snd s with Fin step => match heat gauss (fst s) step sigma x with Ok H => H | Err _ => [] end | _ => [] end).
  exists g. split; [assumption|]. intros n_jobs Y HJ HY. exists (map (fun y => map (fun e => Gf (snd e) (points_of (fst e) y)) g) Y). split.
  - unfold heat_kernel. rewrite E1. cbn [bind]. rewrite E2. cbn [bind].
    apply (vectorise_dict (fun s batch => match snd s with Fin step => heats gauss batch (fst s) step sigma | _ => Err ValueError end) Gf); try assumption.
    + eapply transformable_ext; [|exact HY]. intros q. now rewrite HK.
    + intros q [s step] xs He _. destruct (GL q s step He) as [lo [hi [st [-> [_ [_ [Hlh HGr]]]]]]]. cbn [fst snd].
      rewrite (heats_total gauss n_bins s st sigma HGa Hn lo hi Hlh HGr). reflexivity.
  - clear HY. induction Y as [|y Y IH]; cbn [map]; constructor; [|exact IH]. clear IH.
    assert (G : forall g', incl g' g -> Forall2 (fun e im => exists lo hi step,
        Znth (fst (snd e)) 0 = Some lo /\ Znth (fst (snd e)) (n_bins - 1) = Some hi /\ snd (snd e) = Fin step /\
        is_heat gauss lo hi n_bins step sigma (points_of (fst e) y) im) g' (map (fun e => Gf (snd e) (points_of (fst e) y)) g')).
    { induction g' as [|[q [s step]] g' IH]; intros Hin; cbn [map]; constructor; [|apply IH; intros a Ha; apply Hin; now right].
      destruct (GL q s step (Hin _ (or_introl eq_refl))) as [lo [hi [st [-> [Z0 [Z1 [Hlh HGr]]]]]]]. cbn [fst snd Gf].
      destruct (heat_ok gauss lo hi n_bins s st sigma (points_of q y) HGa Hn Hlh HGr) as [H [EH [IsH _]]]. rewrite EH.
      exists lo, hi, st. auto. }
    apply G. apply incl_refl.
Qed.

Lemma fit_two_axes n X : 1 <= n -> trainable X ->
  exists g, first_dims X = Ok (map fst g) /\ bin_axes true n (map fst g) X = Ok g /\ g <> [] /\ fitted_grids2 n X g /\
    (forall q, In q (map fst g) -> isnan q = false).
Proof.
  intros Hn HT. destruct (fit_ok true n X Hn HT) as [dims [b [E1 [Hd [HD [HN [E2 [Ek HG]]]]]]]].
  exists b. rewrite Ek. split; [assumption|]. split; [assumption|]. split; [rewrite <- Ek in Hd; destruct b; [easy|discriminate]|].
  split; [|assumption]. unfold fitted_grids2. rewrite Ek. split; [assumption|]. intros q s0 st0 s1 st1 H.
  destruct (HG q (s0, st0) (s1, st1) H) as [G _]. now apply G.
Qed.

Lemma persistence_image_transform_ok gauss wf sigma n_bins X : keeps_shape gauss -> (forall l, zlen (wf l) = zlen l) ->
  2 <= n_bins -> trainable X ->
  exists g, fitted_grids2 n_bins X g /\ forall n_jobs Y, 1 <= n_jobs -> transformable (map pq (hd [] X)) Y -> exists R, persistence_image_transform gauss wf sigma n_bins n_jobs X Y = Ok R /\
    Forall2 (fun y ims => Forall2 (fun e im => exists lo0 hi0 lo1 hi1 step0 step1,
        Znth (fst (fst (snd e))) 0 = Some lo0 /\ Znth (fst (fst (snd e))) (n_bins - 1) = Some hi0 /\
        Znth (fst (snd (snd e))) 0 = Some lo1 /\ Znth (fst (snd (snd e))) (n_bins - 1) = Some hi1 /\
        snd (fst (snd e)) = Fin step0 /\ snd (snd (snd e)) = Fin step1 /\
        is_persistence_image gauss lo0 hi0 lo1 hi1 n_bins step0 step1 sigma (wf (fst (snd (snd e)))) (points_of (fst e) y) im) g ims) Y R.
Proof.
  intros HGa HW Hn HT. destruct (fit_two_axes n_bins X ltac:(lia) HT) as [g [E1 [E2 [Hg [HG HN]]]]].
  pose proof HG as [[HI HK] HV].
  assert (GL : forall q s0 step0 s1 step1, In (q, ((s0, step0), (s1, step1))) g -> exists lo0 hi0 st0 lo1 hi1 st1,
     step0 = Fin st0 /\ Znth s0 0 = Some lo0 /\ Znth s0 (n_bins - 1) = Some hi0 /\ (lo0 <= hi0)%Qc /\ is_grid lo0 hi0 n_bins s0 (Fin st0) /\
     step1 = Fin st1 /\ Znth s1 0 = Some lo1 /\ Znth s1 (n_bins - 1) = Some hi1 /\ (lo1 <= hi1)%Qc /\ is_grid lo1 hi1 n_bins s1 (Fin st1)).
  { intros q s0 step0 s1 step1 He. assert (Hq : exists q', In q' (map fst g) /\ q' = q).
    { exists q. split; [|reflexivity]. apply in_map_iff. exists (q, ((s0, step0), (s1, step1))). auto. }
    destruct (HV _ _ _ _ _ He) as [A B].
    destruct (grid_lo_hi (fun q => birth_value q X) (map fst g) n_bins q _ _ Hn Hq A) as [lo0 [hi0 [st0 H0]]].
    destruct (grid_lo_hi (fun q => lifetime_value q X) (map fst g) n_bins q _ _ Hn Hq B) as [lo1 [hi1 [st1 H1]]].
    exists lo0, hi0, st0, lo1, hi1, st1. tauto. }
  set (Gf := fun (s : (list Qc * fl) * (list Qc * fl)) x => match snd (fst s), snd (snd s) with
      | Fin step0, Fin step1 => match persistence_image gauss (combine (fst (fst s)) (fst (snd s))) (step0, step1) sigma (wf (fst (snd s))) x with Ok H => H | Err _ => [] end
      | _, _ => [] end).
  assert (GP : forall q s0 st0 s1 st1 x, In (q, ((s0, Fin st0), (s1, Fin st1))) g -> exists lo0 hi0 lo1 hi1 H,
     Znth s0 0 = Some lo0 /\ Znth s0 (n_bins - 1) = Some hi0 /\ Znth s1 0 = Some lo1 /\ Znth s1 (n_bins - 1) = Some hi1 /\
     persistence_image gauss (combine s0 s1) (st0, st1) sigma (wf s1) x = Ok H /\
     is_persistence_image gauss lo0 hi0 lo1 hi1 n_bins st0 st1 sigma (wf s1) x H).
  { intros q s0 st0 s1 st1 x He. destruct (GL _ _ _ _ _ He) as [lo0 [hi0 [st0' [lo1 [hi1 [st1' [F0 [A0 [B0 [C0 [D0 [F1 [A1 [B1 [C1 D1]]]]]]]]]]]]]]].
    injection F0 as <-. injection F1 as <-.
    destruct (persistence_image_ok gauss lo0 hi0 lo1 hi1 n_bins s0 s1 st0 st1 sigma (wf s1) x HGa Hn C0 C1 D0 D1) as [H [E I]].
    { rewrite HW. apply D1. }
    exists lo0, hi0, lo1, hi1, H. auto 10. }
  exists g. split; [assumption|]. intros n_jobs Y HJ HY. exists (map (fun y => map (fun e => Gf (snd e) (points_of (fst e) y)) g) Y). split.
  - unfold persistence_image_transform. rewrite E1. cbn [bind]. rewrite E2. cbn [bind].
    apply (vectorise_dict (fun s batch => match snd (fst s), snd (snd s) with
               | Fin step0, Fin step1 => persistence_images gauss batch (combine (fst (fst s)) (fst (snd s))) (step0, step1) sigma (wf (fst (snd s)))
               | _, _ => Err ValueError end) Gf); try assumption.
    + eapply transformable_ext; [|exact HY]. intros q. now rewrite HK.
    + intros q [[s0 step0] [s1 step1]] xs He _. destruct (GL _ _ _ _ _ He) as [_ [_ [st0 [_ [_ [st1 [-> [_ [_ [_ [_ [-> _]]]]]]]]]]]]. cbn [fst snd].
      unfold persistence_images. apply mapM_Ok. intros x _. destruct (GP _ _ _ _ _ x He) as [lo0 [hi0 [lo1 [hi1 [H [_ [_ [_ [_ [E _]]]]]]]]]].
      unfold Gf. cbn [fst snd]. now rewrite E.
  - clear HY. induction Y as [|y Y IH]; cbn [map]; constructor; [|exact IH]. clear IH.
    match goal with |- Forall2 ?R _ _ => assert (G : forall g', incl g' g -> Forall2 R g' (map (fun e => Gf (snd e) (points_of (fst e) y)) g')) end.
    { induction g' as [|[q [[s0 step0] [s1 step1]]] g' IH]; intros Hin; cbn [map]; constructor; [|apply IH; intros a Ha; apply Hin; now right].
      pose proof (Hin _ (or_introl eq_refl)) as He.
      destruct (GL _ _ _ _ _ He) as [_ [_ [st0 [_ [_ [st1 [-> [_ [_ [_ [_ [-> _]]]]]]]]]]]].
      destruct (GP _ _ _ _ _ (points_of q y) He) as [lo0 [hi0 [lo1 [hi1 [H [Z0 [Z1 [Z2 [Z3 [E I]]]]]]]]]]. cbn [fst snd Gf]. rewrite E.
      exists lo0, hi0, lo1, hi1, st0, st1. auto 10. }
    apply G. apply incl_refl.
Qed.

(** *** consequences *)
Lemma Forall2_map_eq {A B} (f g : A -> B) (R : A -> A -> Prop) Y Y' : (forall y y', R y y' -> f y = g y') -> Forall2 R Y Y' -> map f Y = map g Y'.
Proof. intros H; induction 1; cbn [map]; [reflexivity|]. f_equal; auto. Qed.
Lemma Forall2_det {A B} (P : A -> B -> Prop) (R : A -> A -> Prop) Y Y' Z Z' :
  (forall y y' z z', R y y' -> P y z -> P y' z' -> z = z') -> Forall2 R Y Y' -> Forall2 P Y Z -> Forall2 P Y' Z' -> Z = Z'.
Proof.
  intros H F. revert Z Z'. induction F; intros Z Z' F1 F2; inversion F1; inversion F2; subst; [reflexivity|]. f_equal; eauto.
Qed.
Lemma Forall2_det' {A B} (P P' : A -> B -> Prop) Y Z Z' :
  (forall y z z', In y Y -> P y z -> P' y z' -> z = z') -> Forall2 P Y Z -> Forall2 P' Y Z' -> Z = Z'.
Proof.
  intros H F. revert Z'. induction F; intros Z' F2; inversion F2; subst; [reflexivity|]. f_equal; [eapply H; eauto; now left|].
  apply IHF; [|assumption]. intros; eapply H; eauto. now right.
Qed.

Lemma betti_curve_same n_bins j j' X Y Y' : 1 <= n_bins -> 1 <= j -> 1 <= j' -> trainable X ->
  transformable (map pq (hd [] X)) Y -> transformable (map pq (hd [] X)) Y' ->
  Forall2 (fun y y' => forall q, same_off_diagonal (points_of q y) (points_of q y')) Y Y' ->
  betti_curve n_bins j X Y = betti_curve n_bins j' X Y'.
Proof.
  intros Hn Hj Hj' HT HY HY' F. destruct (betti_curve_ok n_bins X Hn HT) as [g [_ E]]. rewrite E, E by assumption. f_equal.
  eapply Forall2_map_eq; [|exact F]. intros y y' H. apply map_ext. intros e. apply map_ext. intros s. now apply alive_count_same.
Qed.
Lemma persistence_landscape_same partition n_layers n_bins j j' X Y Y' : is_partition partition -> 1 <= n_layers -> 1 <= n_bins -> 1 <= j -> 1 <= j' -> trainable X ->
  transformable (map pq (hd [] X)) Y -> transformable (map pq (hd [] X)) Y' ->
  Forall2 (fun y y' => forall q, same_off_diagonal (points_of q y) (points_of q y')) Y Y' ->
  persistence_landscape partition n_layers n_bins j X Y = persistence_landscape partition n_layers n_bins j' X Y'.
Proof.
  intros HP HL Hn Hj Hj' HT HY HY' F. destruct (persistence_landscape_ok partition n_layers n_bins X HP HL Hn HT) as [g [_ E]]. rewrite E, E by assumption. f_equal.
  eapply Forall2_map_eq; [|exact F]. intros y y' H. f_equal. apply map_ext. intros e. apply tabZ_ext. intros k _. apply map_ext. intros s. now apply layer_same.
Qed.
Lemma heat_kernel_same gauss sigma n_bins j j' X Y Y' : keeps_shape gauss -> 2 <= n_bins -> 1 <= j -> 1 <= j' -> trainable X ->
  transformable (map pq (hd [] X)) Y -> transformable (map pq (hd [] X)) Y' ->
  Forall2 (fun y y' => forall q, same_off_diagonal (points_of q y) (points_of q y')) Y Y' ->
  heat_kernel gauss sigma n_bins j X Y = heat_kernel gauss sigma n_bins j' X Y'.
Proof.
  intros HGa Hn Hj Hj' HT HY HY' F. destruct (heat_kernel_ok gauss sigma n_bins X HGa Hn HT) as [g [HG E]].
  destruct (E j Y Hj HY) as [R [-> FR]]. destruct (E j' Y' Hj' HY') as [R' [-> FR']]. f_equal.
  eapply Forall2_det; [|exact F|exact FR|exact FR']. cbn beta. intros y y' ims ims' H F1 F2.
  eapply Forall2_det'; [|exact F1|exact F2]. cbn beta. intros [q [s step]] im im' He [lo [hi [st [Z0 [Z1 [Es I]]]]]] [lo' [hi' [st' [Z0' [Z1' [Es' I']]]]]].
  cbn [fst snd] in *. assert (lo' = lo) by congruence. assert (hi' = hi) by congruence. assert (st' = st) by congruence. subst.
  destruct HG as [HD HV]. destruct (grid_lo_hi (fun q => coordinate q X) (map fst g) n_bins q s (Fin st)) as [lo' [hi' [st' [Ea [Eb [Ec [Ed Ee]]]]]]]; [assumption| |now apply HV|].
  { exists q. split; [|reflexivity]. apply in_map_iff. exists (q, (s, Fin st)). auto. }
  assert (lo' = lo) by congruence. assert (hi' = hi) by congruence. assert (st' = st) by congruence. subst.
  eapply (is_heat_same gauss lo hi n_bins st sigma); [lia| |exact (H q)|exact I|exact I'].
  destruct (is_grid_facts _ _ _ _ _ Hn Ee) as [_ [_ [_ [_ Est]]]]. eapply step_sign; eassumption.
Qed.

Lemma pi_count_perm lo0 hi0 st0 lo1 hi1 st1 i j x y : Permutation x y -> pi_count lo0 hi0 st0 lo1 hi1 st1 i j x = pi_count lo0 hi0 st0 lo1 hi1 st1 i j y.
Proof. induction 1 as [|[b d] l l' P IH|[b d] [b' d'] l|]; cbn [pi_count]; cbv zeta; lia. Qed.
Lemma pi_count_off lo0 hi0 st0 lo1 hi1 st1 i j x : (lo1 <= 0)%Qc -> (0 <= hi1)%Qc ->
  pi_count lo0 hi0 st0 lo1 hi1 st1 i j x = pi_count lo0 hi0 st0 lo1 hi1 st1 i j (off_diagonal x).
Proof.
  intros H0 H1. induction x as [|[b d] x IH]; [reflexivity|]. unfold off_diagonal. cbn [filter fst snd]. fold (off_diagonal x).
  destruct (Qceqb_spec b d) as [->|E]; cbn [negb pi_count]; cbv zeta; rewrite IH; [|reflexivity].
  assert (E : clamp lo1 hi1 (d - d)%Qc = 0%Qc) by (unfold clamp, smax, smin; qdec; qneg; qlra). rewrite E. reflexivity.
Qed.
Lemma pi_count_same lo0 hi0 st0 lo1 hi1 st1 i j x y : (lo1 <= 0)%Qc -> (0 <= hi1)%Qc -> same_off_diagonal x y ->
  pi_count lo0 hi0 st0 lo1 hi1 st1 i j x = pi_count lo0 hi0 st0 lo1 hi1 st1 i j y.
Proof. intros H0 H1 H. rewrite (pi_count_off lo0 hi0 st0 lo1 hi1 st1 i j x), (pi_count_off lo0 hi0 st0 lo1 hi1 st1 i j y) by assumption. now apply pi_count_perm. Qed.

Lemma is_pi_same gauss lo0 hi0 lo1 hi1 n st0 st1 sigma w x y H H' : 0 <= n -> (0 <= st0)%Qc -> (0 <= st1)%Qc -> zlen w = n ->
  (forall i j, pi_count lo0 hi0 st0 lo1 hi1 st1 i j x = pi_count lo0 hi0 st0 lo1 hi1 st1 i j y) ->
  is_persistence_image gauss lo0 hi0 lo1 hi1 n st0 st1 sigma w x H -> is_persistence_image gauss lo0 hi0 lo1 hi1 n st0 st1 sigma w y H' -> H = H'.
Proof.
  intros Hn Hs0 Hs1 HW E [S [Z0 P]] [S' [Z0' P']]. apply (entry_ext n n); try assumption. intros r c Hr Hc.
  apply Qcle_lt_or_eq in Hs0, Hs1. destruct Hs0 as [Hs0|Hs0]; [destruct Hs1 as [Hs1|Hs1]|].
  - destruct (P Hs0 Hs1) as [R [SR [ER F]]]. destruct (P' Hs0 Hs1) as [R' [SR' [ER' F']]].
    assert (R = R').
    { apply (entry_ext n n); try assumption. intros i j Hi Hj. destruct (Znth_ex w j) as [v Hv]; [lia|].
      rewrite (ER i j v), (ER' i j v) by assumption. now rewrite E. }
    subst R'. destruct (F r c Hr Hc) as [u [A C]]. destruct (F' r c Hr Hc) as [u' [A' C']]. rewrite C, C'. congruence.
  - rewrite Z0, Z0' by auto. reflexivity.
  - rewrite Z0, Z0' by auto. reflexivity.
Qed.

Lemma persistence_image_same gauss wf sigma n_bins j j' X Y Y' : keeps_shape gauss -> (forall l, zlen (wf l) = zlen l) ->
  2 <= n_bins -> 1 <= j -> 1 <= j' -> trainable X ->
  transformable (map pq (hd [] X)) Y -> transformable (map pq (hd [] X)) Y' ->
  Forall2 (fun y y' => forall q, Permutation (points_of q y) (points_of q y') \/
     (same_off_diagonal (points_of q y) (points_of q y') /\ lifetime_value q X 0%Qc)) Y Y' ->
  persistence_image_transform gauss wf sigma n_bins j X Y = persistence_image_transform gauss wf sigma n_bins j' X Y'.
Proof.
  intros HGa HW Hn Hj Hj' HT HY HY' F. destruct (persistence_image_transform_ok gauss wf sigma n_bins X HGa HW Hn HT) as [g [HG E]].
  destruct (E j Y Hj HY) as [R [-> FR]]. destruct (E j' Y' Hj' HY') as [R' [-> FR']]. f_equal.
  eapply Forall2_det; [|exact F|exact FR|exact FR']. cbn beta. intros y y' ims ims' H F1 F2.
  eapply Forall2_det'; [|exact F1|exact F2]. cbn beta. intros [q [[s0 step0] [s1 step1]]] im im' He
    [lo0 [hi0 [lo1 [hi1 [st0 [st1 [A0 [B0 [A1 [B1 [C0 [C1 I]]]]]]]]]]]] [lo0' [hi0' [lo1' [hi1' [st0' [st1' [A0' [B0' [A1' [B1' [C0' [C1' I']]]]]]]]]]]].
  cbn [fst snd] in *. assert (lo0' = lo0) by congruence. assert (hi0' = hi0) by congruence. assert (st0' = st0) by congruence.
  assert (lo1' = lo1) by congruence. assert (hi1' = hi1) by congruence. assert (st1' = st1) by congruence. subst.
  destruct HG as [HD HV]. destruct (HV _ _ _ _ _ He) as [G0 G1].
  assert (Hq : exists q', In q' (map fst g) /\ q' = q).
  { exists q. split; [|reflexivity]. apply in_map_iff. exists (q, ((s0, Fin st0), (s1, Fin st1))). auto. }
  destruct (grid_lo_hi (fun q => birth_value q X) (map fst g) n_bins q s0 (Fin st0) Hn Hq G0) as [lo0' [hi0' [st0' [Ea0 [Eb0 [Ec0 [Ed0 Ee0]]]]]]].
  destruct (grid_lo_hi (fun q => lifetime_value q X) (map fst g) n_bins q s1 (Fin st1) Hn Hq G1) as [lo1' [hi1' [st1' [Ea1 [Eb1 [Ec1 [Ed1 Ee1]]]]]]].
  assert (lo0' = lo0) by congruence. assert (hi0' = hi0) by congruence. assert (st0' = st0) by congruence.
  assert (lo1' = lo1) by congruence. assert (hi1' = hi1) by congruence. assert (st1' = st1) by congruence. subst.
  destruct (is_grid_facts _ _ _ _ _ Hn Ee0) as [_ [_ [_ [_ Est0]]]]. destruct (is_grid_facts _ _ _ _ _ Hn Ee1) as [L1 [_ [_ [_ Est1]]]].
  eapply (is_pi_same gauss lo0 hi0 lo1 hi1 n_bins st0 st1 sigma (wf s1)); [lia|exact (step_sign lo0 hi0 n_bins st0 Hn Ed0 Est0)|exact (step_sign lo1 hi1 n_bins st1 Hn Ed1 Est1)|now rewrite HW| |exact I|exact I'].
  intros a b. destruct (H q) as [P|[P L0]]; [now apply pi_count_perm|]. apply pi_count_same; [| |assumption].
  - destruct G1 as [lo' [hi' [[[_ HL] _] [_ [Z0 _]]]]]. assert (lo' = lo1) by congruence. subst. now apply HL.
  - destruct G1 as [lo' [hi' [[HL [m [HM HR]]] [_ [Z0 [_ Z1]]]]]]. destruct (Z1 ltac:(lia)) as [_ [Z1' _]]. assert (hi' = hi1) by congruence. subst.
    destruct HR as [[_ ->]|[_ [_ HR]]]; [now apply HM|]. apply HR. exists q. destruct Hq as [q' [Hq ->]]. auto.
Qed.

Lemma kth_largest_decreasing l k v w : (forall a, In a l -> (0 <= a)%Qc) -> 0 <= k -> kth_largest l k v -> kth_largest l (k + 1) w -> (0 <= w)%Qc /\ (w <= v)%Qc.
Proof.
  intros H Hk Hv Hw. apply kth_largest_layer in Hv, Hw. subst. unfold layer. pose proof (sort_desc_sorted l) as S.
  assert (N : forall a, In a (sort_desc l) -> (0 <= a)%Qc) by (intros a Ha; apply H; apply (Permutation_in _ (sort_desc_perm l)); assumption).
  destruct (Znth (sort_desc l) (k + 1)) as [b|] eqn:Eb.
  - pose proof (Znth_Some_lt _ _ _ Eb). destruct (Znth_ex (sort_desc l) k) as [a Ea]; [lia|]. rewrite Ea. split; [apply N; eapply Znth_In; eassumption|].
    destruct (Znth_split _ _ _ Ea) as [l1 [l2 [E L1]]]. rewrite E in *. rewrite Znth_app2 in Eb by lia. rewrite L1 in Eb. rewrite Znth_cons in Eb by lia. apply Znth_In in Eb.
    clear - S Eb. induction l1 as [|c l1 IH]; cbn [app] in S; inversion S as [|? ? S1 S2]; subst; [|auto]. rewrite Forall_forall in S2. auto.
  - split; [apply Qcle_refl|]. destruct (Znth (sort_desc l) k) as [a|] eqn:Ea; [|apply Qcle_refl]. apply N. eapply Znth_In; eassumption.
Qed.
