(** C70: plots of Betti curves, silhouettes, landscapes, heat kernels and
    persistence images. *)
From Coq Require Import Reals Permutation.
From Verif Require Import Np NpFacts Fl FlFacts DiagTypes DiagModel DiagSpec DiagProofs DiagProofs2 DiagProofs3
  VecModel VecSpec VecProofs VecProofs2 VecProofs3 VecProofs4 VecThms RNp MetricModel MetricSpec MetricThms
  PlotTypes PlotModel PlotSpec PlotThms.
From Verif Require CurveThms2 FilterThms.
Open Scope Z_scope.

(** ** The fitted grids are determined by their specification. *)
Lemma is_grid_unique lo hi n s step s' step' : 1 <= n ->
  is_grid lo hi n s step -> is_grid lo hi n s' step' -> s = s' /\ step = step'.
Proof.
  intros Hn [L [Z0 [N1 N2]]] [L' [Z0' [N1' N2']]]. destruct (Z.eq_dec n 1) as [->|].
  - split; [|now rewrite N1, N1']. apply Znth_ext; [lia|]. intros i Hi. rewrite L in Hi. assert (i = 0) by lia. subst. congruence.
  - destruct (N2 ltac:(lia)) as [-> [_ E]], (N2' ltac:(lia)) as [-> [_ E']]. split; [|reflexivity].
    apply Znth_ext; [lia|]. intros i Hi. rewrite L in Hi. rewrite E, E' by lia. reflexivity.
Qed.
Lemma grid_of_unique P dims n q s step s' step' : 1 <= n ->
  grid_of P dims n q s step -> grid_of P dims n q s' step' -> s = s' /\ step = step'.
Proof.
  intros Hn [lo [hi [[L [m [G R]]] HG]]] [lo' [hi' [[L' [m' [G' R']]] HG']]].
  assert (lo = lo') by (eapply is_least_unique; eassumption). subst lo'.
  assert (m = m') by (eapply is_greatest_unique; eassumption). subst m'.
  assert (hi = hi').
  { destruct R as [[R1 ->]|[R1 R2]], R' as [[R1' ->]|[R1' R2']]; try congruence. eapply is_greatest_unique; eassumption. }
  subst hi'. eapply is_grid_unique; eassumption.
Qed.
Lemma keyed_ext {V} (g g' : list (fl * V)) : map fst g = map fst g' ->
  NoDup (map fst g) -> (forall q v v', In (q, v) g -> In (q, v') g' -> v = v') -> g = g'.
Proof.
  revert g'. induction g as [|[q v] g IH]; intros [|[q' v'] g'] E N H; try discriminate; [reflexivity|].
  cbn [map fst] in E, N. injection E as -> E. inversion N as [|? ? N1 N2]; subst. f_equal.
  - f_equal. apply (H q'); now left.
  - apply IH; [assumption|assumption|]. intros q w w' A B. apply (H q); now right.
Qed.
Lemma increasing_NoDup l : increasing l -> NoDup l.
Proof.
  induction l as [|x l IH]; intros H; [constructor|]. apply increasing_inv in H. destruct H as [H1 H2]. constructor; [|auto].
  intros I. apply H2 in I. now rewrite flt_irrefl in I.
Qed.
Theorem fitted_grids_unique n X g g' : 1 <= n -> fitted_grids n X g -> fitted_grids n X g' -> g = g'.
Proof.
  intros Hn [[I1 M1] V1] [[I2 M2] V2].
  assert (E : map fst g = map fst g') by (apply increasing_unique; try assumption; intros q; now rewrite M1, M2).
  apply keyed_ext; [assumption|now apply increasing_NoDup|]. intros q [s t] [s' t'] A B.
  specialize (V1 _ _ _ A). specialize (V2 _ _ _ B). rewrite <- E in V2. destruct (grid_of_unique _ _ _ _ _ _ _ _ Hn V1 V2). congruence.
Qed.
Theorem fitted_grids2_unique n X g g' : 1 <= n -> fitted_grids2 n X g -> fitted_grids2 n X g' -> g = g'.
Proof.
  intros Hn [[I1 M1] V1] [[I2 M2] V2].
  assert (E : map fst g = map fst g') by (apply increasing_unique; try assumption; intros q; now rewrite M1, M2).
  apply keyed_ext; [assumption|now apply increasing_NoDup|]. intros q [[s t] [s1 t1]] [[s' t'] [s1' t1']] A B.
  destruct (V1 _ _ _ _ _ A) as [A1 A2]. destruct (V2 _ _ _ _ _ B) as [B1 B2]. rewrite <- E in B1, B2.
  destruct (grid_of_unique _ _ _ _ _ _ _ _ Hn A1 B1). destruct (grid_of_unique _ _ _ _ _ _ _ _ Hn A2 B2). congruence.
Qed.

(** ** The index of a requested dimension *)
Lemma first_index_ok dims j q : increasing dims -> Znth dims j = Some q -> isnan q = false -> first_index dims q = Ok j.
Proof.
  revert j. induction dims as [|q' dims IH]; intros j HI Hj Hn; [apply Znth_In in Hj; destruct Hj|].
  apply increasing_inv in HI. destruct HI as [HI HL]. pose proof (Znth_Some_lt _ _ _ Hj) as B. cbn [first_index]. destruct (Z.eq_dec j 0) as [->|].
  - rewrite Znth_0 in Hj. injection Hj as ->. now rewrite feq_refl.
  - rewrite Znth_cons in Hj by lia. destruct (feq q' q) eqn:E.
    + apply feq_eq in E. subst q'. apply Znth_In in Hj. apply HL in Hj. now rewrite flt_irrefl in Hj.
    + rewrite (IH (j - 1)) by assumption. cbn [rmap]. f_equal. lia.
Qed.
Lemma mapi_pairs {A} (l : list A) : forall i p, Znth (mapi (fun i q => (i, q)) l) i = Some p <-> exists q, p = (i, q) /\ Znth l i = Some q.
Proof.
  intros i p. rewrite Znth_mapi. destruct (Znth l i) as [q|]; cbn; split.
  - intros [= <-]. eauto.
  - intros [q' [-> [= <-]]]. reflexivity.
  - discriminate.
  - intros [q' [_ E]]. discriminate.
Qed.

(** The dimensions to be drawn: those asked for, or all of them. *)
Definition asked (dims : list fl) (given : option (list fl)) : list fl :=
  match given with Some l => l | None => dims end.

Lemma mapping_ok dims given : increasing dims -> (forall q, In q dims -> isnan q = false) ->
  (forall q, In q (asked dims given) -> In q dims) ->
  exists m, dimensions_mapping given dims = Ok m /\
    Forall2 (fun q e => snd e = q /\ Znth dims (fst e) = Some q) (asked dims given) m.
Proof.
  intros HI HN HS. destruct given as [l|]; cbn [asked dimensions_mapping] in *.
  - induction l as [|q l IH]; [exists []; split; [reflexivity|constructor]|]. destruct IH as [m [E F]]; [intros; apply HS; now right|].
    specialize (HS q (or_introl eq_refl)). apply In_Znth in HS. destruct HS as [j [_ Hj]]. exists ((j, q) :: m). cbn [mapM].
    assert (HX : existsb (fun q0 => feq q0 q) dims = true).
    { apply existsb_exists. exists q. apply Znth_In in Hj. split; [assumption|]. now apply feq_refl, HN. }
    rewrite HX. cbn [negb]. rewrite (first_index_ok dims j q) by (try assumption; apply HN; now apply Znth_In in Hj). cbn [bind]. rewrite E. cbn [bind].
    split; [reflexivity|]. constructor; [auto|assumption].
  - eexists. split; [reflexivity|]. clear. apply CurveThms2.Forall2_of_Znth; [now rewrite zlen_mapi|].
    intros i q e Hq He. apply mapi_pairs in He. destruct He as [q' [-> E]]. cbn. split; congruence.
Qed.
Lemma mapping_err dims l q : In q l -> ~ In q dims ->
  dimensions_mapping (Some l) dims = Err ValueError.
Proof.
  intros Hq Hn. cbn [dimensions_mapping].
  assert (HX : forall q', first_index dims q' = Err IndexError -> existsb (fun q0 => feq q0 q') dims = false).
  { intros q'. induction dims as [|d dims IH]; [reflexivity|]. cbn. destruct (feq d q'); [discriminate|]. cbn. intros E.
    apply IH; [intros C; apply Hn; now right|]. destruct (first_index dims q'); [discriminate|]. cbn in E. congruence. }
  assert (HY : forall q' e, first_index dims q' = Err e -> e = IndexError).
  { intros q'. clear. induction dims as [|d dims IH]; cbn; intros e; [congruence|]. destruct (feq d q'); [discriminate|]. destruct (first_index dims q'); [discriminate|]. cbn. intros [= <-]. now apply IH. }
  apply FilterThms.mapM_err.
  - intros q' _. destruct (existsb (fun q0 => feq q0 q') dims) eqn:EX; cbn [negb]; [|now right]. left.
    destruct (first_index dims q') as [i|e] eqn:E; [eexists; reflexivity|]. pose proof (HY _ _ E). subst e. apply HX in E. congruence.
  - exists q. split; [assumption|]. assert (EX : existsb (fun q0 => feq q0 q) dims = false).
    { destruct (existsb (fun q0 => feq q0 q) dims) eqn:EX; [|reflexivity]. apply existsb_exists in EX. destruct EX as [q' [H1 H2]]. apply feq_eq in H2. now subst. }
    now rewrite EX.
Qed.

(** ** One line per dimension *)
Lemma Forall2_weaken {A B} (P Q : A -> B -> Prop) l r : (forall a b, P a b -> Q a b) -> Forall2 P l r -> Forall2 Q l r.
Proof. intros H F. induction F; constructor; auto. Qed.
Lemma In_keys {V} (g : list (fl * V)) j q : Znth (map fst g) j = Some q -> exists v, Znth g j = Some (q, v).
Proof. rewrite Znth_map. destruct (Znth g j) as [[q' v]|]; [|discriminate]. cbn. intros [= ->]. eauto. Qed.

Lemma plot_curves_ok {V W} (f : W -> list Qc) (g : list (fl * W)) (P : fl * W -> V -> Prop) Xs given :
  increasing (map fst g) -> (forall q, In q (map fst g) -> isnan q = false) -> Forall2 P g Xs ->
  (forall q, In q (asked (map fst g) given) -> In q (map fst g)) ->
  exists ls, plot_curves (map fst g) (map (fun e => (fst e, f (snd e))) g) Xs given = Ok ls /\
    Forall2 (fun q l => exists w y, In (q, w) g /\ P (q, w) y /\ l = Line q (f w) y) (asked (map fst g) given) ls.
Proof.
  intros HI HN HP HS. destruct (mapping_ok (map fst g) given HI HN HS) as [m [E F]]. unfold plot_curves. rewrite E. cbn [bind]. clear E HS.
  induction F as [|q [j q'] qs m [Eq Ej] _ IH]; [exists []; split; [reflexivity|constructor]|]. cbn [fst snd] in *. subst q'.
  destruct IH as [ls [E Fl]]. destruct (In_keys g j q Ej) as [w Ew]. pose proof (Znth_Some_lt _ _ _ Ew) as B.
  destruct (Znth_ex Xs j) as [y Ey]; [now rewrite <- (Forall2_zlen _ _ _ HP)|].
  exists (Line q (f w) y :: ls). cbn [mapM fst snd].
  assert (Hd : dict_get (map (fun e => (fst e, f (snd e))) g) q = Ok (f w)).
  { apply increasing_keys; rewrite ?map_map; try assumption. apply in_map_iff. exists (q, w). split; [reflexivity|]. now apply Znth_In in Ew. }
  rewrite Hd. cbn [bind]. rewrite (py_get_in Xs j y) by (lia || assumption). cbn [bind]. rewrite E. split; [reflexivity|].
  constructor; [|assumption]. exists w, y. split; [now apply Znth_In in Ew|]. split; [|reflexivity]. exact (Forall2_Znth _ _ _ j _ _ HP Ew Ey).
Qed.

Lemma fit_samplings_ok n_bins X : 1 <= n_bins -> trainable X ->
  exists g, fitted_grids n_bins X g /\ fit_dims X = Ok (map fst g) /\
    fit_samplings n_bins X = Ok (map (fun e => (fst e, fst (snd e))) g) /\
    increasing (map fst g) /\ (forall q, In q (map fst g) -> isnan q = false) /\ g <> [].
Proof.
  intros Hn HT. destruct (fit_one_axis n_bins X Hn HT) as [g [E1 [E2 [Hg [HG HN]]]]]. exists g. unfold fit_dims, fit_samplings. rewrite E1. cbn [bind]. rewrite E2. cbn [bind].
  split; [assumption|]. split; [reflexivity|]. split; [reflexivity|]. split; [apply HG|]. auto.
Qed.

(** BettiCurve: after fit(X), plot(transform(Y), i) draws for each requested
    dimension q, at each abscissa t of the grid fitted for q, the number of points
    (b, d) of dimension q of the i-th diagram of Y with b <= t < d. *)
Theorem betti_curve_plot_spec n_bins X :
  1 <= n_bins -> trainable X ->
  exists g, fitted_grids n_bins X g /\ fit_dims X = Ok (map fst g) /\
    fit_samplings n_bins X = Ok (map (fun e => (fst e, fst (snd e))) g) /\
    forall n_jobs Y i y given, 1 <= n_jobs -> transformable (map pq (hd [] X)) Y -> Znth Y i = Some y ->
    (forall q, In q (asked (map fst g) given) -> In q (map fst g)) ->
    exists Yt c ls, betti_curve n_bins n_jobs X Y = Ok Yt /\ py_get Yt i = Ok c /\
      plot_curves (map fst g) (map (fun e => (fst e, fst (snd e))) g) c given = Ok ls /\
      Forall2 (fun q l => exists s step, In (q, (s, step)) g /\
        l = Line q s (map (fun t => alive_count t (points_of q y)) s)) (asked (map fst g) given) ls.
Proof.
  intros Hn HT. destruct (fit_samplings_ok n_bins X Hn HT) as [g [HG [E1 [E2 [HI [HN _]]]]]]. exists g. split; [assumption|]. split; [assumption|]. split; [assumption|].
  intros n_jobs Y i y given HJ HY Hi HS. destruct (betti_curve_spec n_bins X Hn HT) as [g' [HG' HB]].
  rewrite (fitted_grids_unique n_bins X g' g Hn HG' HG) in HB. rewrite (HB n_jobs Y HJ HY). do 2 eexists.
  destruct (plot_curves_ok (@fst (list Qc) fl) g (fun e c => c = map (fun s => alive_count s (points_of (fst e) y)) (fst (snd e)))
     (map (fun e => map (fun s => alive_count s (points_of (fst e) y)) (fst (snd e))) g) given HI HN) as [ls [E F]].
  - clear. induction g; constructor; auto.
  - assumption.
  - exists ls. split; [reflexivity|]. pose proof (Znth_Some_lt _ _ _ Hi). split; [apply py_get_in; [lia|]; rewrite Znth_map, Hi; reflexivity|]. split; [exact E|].
    eapply Forall2_weaken; [|exact F]. intros q l [[s step] [v [A [-> ->]]]]. exists s, step. auto.
Qed.

(** Silhouette: the same with the values of the silhouette. *)
Theorem silhouette_plot_spec power n_bins X :
  1 <= n_bins -> match power with Pfin a => (0 < a)%R | Pinf => True end -> trainable X ->
  exists g, fitted_grids n_bins X g /\ fit_dims X = Ok (map fst g) /\
    fit_samplings n_bins X = Ok (map (fun e => (fst e, fst (snd e))) g) /\
    forall n_jobs Y i y given, 1 <= n_jobs -> transformable (map pq (hd [] X)) Y ->
    defined_on (MetricModel.Silhouette Pinf power) (map pq (hd [] X)) Y -> Znth Y i = Some y ->
    (forall q, In q (asked (map fst g) given) -> In q (map fst g)) ->
    exists Yt c ls, silhouette_transform power n_bins n_jobs X Y = Ok Yt /\ py_get Yt i = Ok c /\
      plot_curves (map fst g) (map (fun e => (fst e, fst (snd e))) g) c given = Ok ls /\
      Forall2 (fun q l => exists s step v, In (q, (s, step)) g /\ l = Line q s (Some v) /\
        Forall2 (is_silhouette power (points_of q y)) s v) (asked (map fst g) given) ls.
Proof.
  intros Hn Hp HT. destruct (fit_samplings_ok n_bins X Hn HT) as [g [HG [E1 [E2 [HI [HN _]]]]]]. exists g. split; [assumption|]. split; [assumption|]. split; [assumption|].
  intros n_jobs Y i y given HJ HY HD Hi HS. destruct (silhouette_spec power n_bins X Hn Hp HT) as [g' [HG' HB]].
  rewrite (fitted_grids_unique n_bins X g' g Hn HG' HG) in HB. destruct (HB n_jobs Y HJ HY HD) as [S [ES FS]].
  assert (LS : zlen Y = zlen S) by exact (Forall2_zlen _ _ _ FS).
  destruct (Znth_ex S i) as [c Ec]; [rewrite <- LS; now apply Znth_Some_lt in Hi|].
  pose proof (Forall2_Znth _ _ _ i _ _ FS Hi Ec) as Fc. cbn beta in Fc.
  destruct (plot_curves_ok (@fst (list Qc) fl) g _ c given HI HN Fc HS) as [ls [E F]].
  exists S, c, ls. split; [assumption|]. pose proof (Znth_Some_lt _ _ _ Hi). split; [apply py_get_in; [lia|assumption]|]. split; [exact E|].
  eapply Forall2_weaken; [|exact F]. intros q l [[s step] [y' [A [[v [-> Hv]] ->]]]]. exists s, step, v. auto.
Qed.

(** Asking for a dimension not seen in fit raises ValueError. *)
Theorem plot_unknown_dimension {V} dims samplings (Xs : list V) l q :
  In q l -> ~ In q dims -> plot_curves dims samplings Xs (Some l) = Err ValueError /\
  plot_landscape dims samplings Xs (Some l) = Err ValueError.
Proof. intros A B. unfold plot_curves, plot_landscape. now rewrite (mapping_err dims l q A B). Qed.

(** PersistenceLandscape: one subplot per requested dimension; its k-th line
    (k = 1, 2, ...) shows at each abscissa t the k-th largest tent value of the
    points of that dimension. *)
Lemma mapM_arange {B} (f : Z -> res B) n (P : Z -> B -> Prop) : 0 <= n ->
  (forall k, 0 <= k < n -> exists b, f k = Ok b /\ P k b) ->
  exists l, mapM f (arange n) = Ok l /\ zlen l = n /\ forall k b, Znth l k = Some b -> P k b.
Proof.
  intros Hn H.
  assert (G : forall ks, (forall k, In k ks -> 0 <= k < n) -> exists l, mapM f ks = Ok l /\ Forall2 P ks l).
  { induction ks as [|k ks IH]; intros Hk; [exists []; split; [reflexivity|constructor]|]. destruct (H k (Hk k (or_introl eq_refl))) as [b [Eb Pb]].
    destruct IH as [l [El Fl]]; [intros; apply Hk; now right|]. exists (b :: l). cbn [mapM]. rewrite Eb. cbn [bind]. rewrite El. split; [reflexivity|now constructor]. }
  destruct (G (arange n)) as [l [El Fl]]; [intros k; apply In_arange|]. exists l. split; [assumption|].
  assert (L : zlen l = n) by (rewrite <- (Forall2_zlen _ _ _ Fl), zlen_arange; lia). split; [assumption|].
  intros k b Hk. pose proof (Znth_Some_lt _ _ _ Hk). refine (Forall2_Znth _ _ _ k _ _ Fl _ Hk). unfold arange. now rewrite Znth_tabZ by lia.
Qed.

Theorem landscape_plot_spec partition n_layers n_bins X :
  is_partition partition -> 1 <= n_layers -> 1 <= n_bins -> trainable X ->
  exists g, fitted_grids n_bins X g /\ fit_dims X = Ok (map fst g) /\
    fit_samplings n_bins X = Ok (map (fun e => (fst e, fst (snd e))) g) /\
    forall n_jobs Y i y given, 1 <= n_jobs -> transformable (map pq (hd [] X)) Y -> Znth Y i = Some y ->
    (forall q, In q (asked (map fst g) given) -> In q (map fst g)) ->
    exists Yt L ps, persistence_landscape partition n_layers n_bins n_jobs X Y = Ok Yt /\ py_get Yt i = Ok L /\
      plot_landscape (map fst g) (map (fun e => (fst e, fst (snd e))) g) L given = Ok ps /\
      Forall2 (fun q p => fst p = q /\ zlen (snd p) = n_layers /\
        exists s step, In (q, (s, step)) g /\
        forall k l, Znth (snd p) k = Some l -> exists v,
          l = Line (k + 1, if zlen (asked (map fst g) given) =? 1 then None else Some q) s v /\ zlen v = zlen s /\
          forall j t, Znth s j = Some t -> exists w, Znth v j = Some w /\
            kth_largest (map (tent t) (points_of q y)) k w) (asked (map fst g) given) ps.
Proof.
  intros HP HL Hn HT. destruct (fit_samplings_ok n_bins X Hn HT) as [g [HG [E1 [E2 [HI [HN Hg]]]]]]. exists g. split; [assumption|]. split; [assumption|]. split; [assumption|].
  intros n_jobs Y i y given HJ HY Hi HS. destruct (persistence_landscape_spec partition n_layers n_bins X HP HL Hn HT) as [g' [HG' HB]].
  rewrite (fitted_grids_unique n_bins X g' g Hn HG' HG) in HB. clear g' HG'. destruct (HB n_jobs Y HJ HY) as [R [ER FR]].
  assert (LS : zlen Y = zlen R) by exact (Forall2_zlen _ _ _ FR).
  destruct (Znth_ex R i) as [L EL]; [rewrite <- LS; now apply Znth_Some_lt in Hi|].
  destruct (Forall2_Znth _ _ _ i _ _ FR Hi EL) as [[SL SR] HE]. exists R, L.
  assert (Lg : 0 < zlen g). { destruct g; [easy|]. rewrite zlen_cons. pose proof (zlen_nonneg g). lia. }
  assert (Lm : zlen (map fst g) = zlen g) by apply zlen_map.
  assert (EN : zlen L / zlen (map fst g) = n_layers). { rewrite SL, Lm, Z.mul_comm. apply Z.div_mul. lia. }
  destruct (mapping_ok (map fst g) given HI HN HS) as [m [Em Fm]].
  assert (LA : zlen m = zlen (asked (map fst g) given)) by (symmetry; apply (Forall2_zlen _ _ _ Fm)).
  assert (HM : exists ps, plot_landscape (map fst g) (map (fun e => (fst e, fst (snd e))) g) L given = Ok ps /\
     Forall2 (fun q p => fst p = q /\ zlen (snd p) = n_layers /\
        exists s step, In (q, (s, step)) g /\
        forall k l, Znth (snd p) k = Some l -> exists v,
          l = Line (k + 1, if zlen (asked (map fst g) given) =? 1 then None else Some q) s v /\ zlen v = zlen s /\
          forall j t, Znth s j = Some t -> exists w, Znth v j = Some w /\
            kth_largest (map (tent t) (points_of q y)) k w) (asked (map fst g) given) ps).
  { unfold plot_landscape. rewrite Em. cbn [bind]. rewrite EN, LA. destruct (Z.eqb_spec (zlen (map fst g)) 0) as [C|_]; [lia|]. cbn [bind].
    generalize (zlen (asked (map fst g) given)) as na. intros na.
    clear Em LA HS. induction Fm as [|q [j q'] qs m [Eq Ej] _ IH]; [exists []; split; [reflexivity|constructor]|]. cbn [fst snd] in *. subst q'.
    destruct IH as [ps [E F]]. destruct (In_keys g j q Ej) as [[s step] Ew]. pose proof (Znth_Some_lt _ _ _ Ew) as B.
    assert (Hd : dict_get (map (fun e => (fst e, fst (snd e))) g) q = Ok s).
    { apply increasing_keys; rewrite ?map_map; try assumption. apply in_map_iff. exists (q, (s, step)). split; [reflexivity|]. now apply Znth_In in Ew. }
    destruct (mapM_arange (fun layer => do x <- dict_get (map (fun e => (fst e, fst (snd e))) g) q;
        do y0 <- py_get L (j * n_layers + layer);
        Ok (Line (layer + 1, if negb (na - 1 =? 0) then Some q else None) x y0)) n_layers
      (fun k l => exists v, l = Line (k + 1, if na =? 1 then None else Some q) s v /\ Znth L (j * n_layers + k) = Some v)) as [ls [El [Ll Hl]]].
    - lia.
    - intros k Hk. rewrite Hd. cbn [bind]. destruct (Znth_ex L (j * n_layers + k)) as [v Ev]; [rewrite SL; nia|].
      rewrite (py_get_in L _ v) by (nia || assumption). cbn [bind]. eexists. split; [reflexivity|]. exists v. split; [|assumption]. f_equal. f_equal.
      destruct (Z.eqb_spec (na - 1) 0), (Z.eqb_spec na 1); try lia; reflexivity.
    - exists ((q, ls) :: ps). cbn [mapM]. rewrite El. cbn [bind]. rewrite E. cbn [bind]. split; [reflexivity|]. constructor; [|assumption]. cbn [fst snd].
      split; [reflexivity|]. split; [assumption|]. exists s, step. split; [now apply Znth_In in Ew|]. intros k l Hk.
      destruct (Hl k l Hk) as [v [-> Ev]]. exists v. split; [reflexivity|]. pose proof (Znth_Some_lt _ _ _ Hk) as Bk. split.
      + rewrite (SR v) by now apply Znth_In in Ev. symmetry. apply Znth_In in Ew. destruct HG as [_ HV]. destruct (HV q s step Ew) as [lo [hi [_ [Ls _]]]]. exact Ls.
      + intros jj t Ht. destruct (HE j q s step k jj t Ew ltac:(lia) Ht) as [w [Hw Kw]]. exists w. split; [|assumption]. unfold entry in Hw. now rewrite Ev in Hw. }
  destruct HM as [ps [E F]]. exists ps. split; [assumption|]. pose proof (Znth_Some_lt _ _ _ Hi). split; [apply py_get_in; [lia|assumption]|]. auto.
Qed.
