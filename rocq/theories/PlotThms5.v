(** C71: point clouds, images, derivatives and Betti curves as drawn. *)
From Verif Require Import Np NpFacts Fl FlFacts DiagTypes DiagSpec VecModel VecSpec CurveModel
  PlotTypes PlotModel PlotSpec PlotThms PlotThms3.
From Verif Require CurveThms2 FilterThms FilterThms2.
Open Scope Z_scope.

(** ** plot_point_cloud *)

Lemma mapM_total {A B} (f : A -> res B) l : (forall a, In a l -> exists b, f a = Ok b) -> exists bs, mapM f l = Ok bs.
Proof.
  induction l as [|a l IH]; intros H; [now exists []|]. destruct (H a (or_introl eq_refl)) as [b Hb]. destruct IH as [bs E]; [intros; apply H; now right|].
  exists (b :: bs). cbn [mapM]. now rewrite Hb, E.
Qed.
Lemma column_ok ncols X j : (forall r, In r X -> zlen r = ncols) -> 0 <= j < ncols ->
  exists c, column X j = Ok c /\ is_column X j c.
Proof.
  intros HX Hj. unfold column.
  assert (T : forall r, In r X -> exists v, py_get r j = Ok v /\ Znth r j = Some v).
  { intros r Hr. destruct (Znth_ex r j) as [v Ev]; [rewrite (HX r Hr); lia|]. exists v. split; [|assumption]. apply py_get_in; [lia|assumption]. }
  destruct (mapM_total (fun r => py_get r j) X) as [c Hc]; [intros r Hr; destruct (T r Hr) as [v [E _]]; eauto|].
  exists c. split; [assumption|]. apply CurveThms2.mapM_iff in Hc.
  assert (G : forall X' c', (forall r, In r X' -> In r X) -> Forall2 (fun r v => py_get r j = Ok v) X' c' -> Forall2 (fun r v => Znth r j = Some v) X' c').
  { induction 2 as [|r v X' c' E F IH]; constructor.
    - destruct (T r (H r (or_introl eq_refl))) as [v' [E1 E2]]. congruence.
    - apply IH. intros; apply H; now right. }
  apply G; auto.
Qed.
Lemma is_column_unique X j c c' : is_column X j c -> is_column X j c' -> c = c'.
Proof.
  intros F. revert c'. induction F as [|r v X c E F IH]; intros c' F'; inversion F'; subst; [reflexivity|]. f_equal; [congruence|auto].
Qed.

(** The cloud is drawn in 3D exactly when asked, or by default when it has at least
    three coordinates; the axes show its first coordinates in order, and points are
    coloured by their position in the array. *)
Theorem plot_point_cloud_spec ncols X dimension p : (forall r, In r X -> zlen r = ncols) -> 0 <= ncols ->
  (plot_point_cloud ncols X dimension = Ok p <->
   exists d, (d = 2 \/ d = 3) /\ d <= ncols /\ (dimension = Some d \/ dimension = None /\ d = Z.min 3 ncols) /\
     zlen (c_coords p) = d /\ (forall j c, Znth (c_coords p) j = Some c -> is_column X j c) /\
     zlen (c_color p) = zlen X /\ forall i, 0 <= i < zlen X -> Znth (c_color p) i = Some i).
Proof.
  intros HX H0. unfold plot_point_cloud.
  set (d0 := match dimension with Some d => d | None => Z.min 3 ncols end).
  assert (A : forall cs d, d = zlen cs -> (forall j c, Znth cs j = Some c -> is_column X j c) ->
     forall q, zlen (c_coords q) = d -> (forall j c, Znth (c_coords q) j = Some c -> is_column X j c) ->
     zlen (c_color q) = zlen X -> (forall i, 0 <= i < zlen X -> Znth (c_color q) i = Some i) -> q = CloudPlot cs (arange (zlen X))).
  { intros cs d Hd Hc [cc col] Hl Hcc Hlc Hcol. cbn [c_coords c_color] in *. f_equal.
    - apply Znth_ext; [lia|]. intros i Hi. destruct (Znth_ex cc i Hi) as [x Ex]. destruct (Znth_ex cs i) as [y Ey]; [lia|]. rewrite Ex, Ey. f_equal. eapply is_column_unique; eauto.
    - apply Znth_ext; [rewrite zlen_arange; pose proof (zlen_nonneg X); lia|]. intros i Hi. rewrite Hcol by lia. symmetry. apply Znth_arange. lia. }
  assert (B : forall c0 c1, is_column X 0 c0 -> is_column X 1 c1 -> forall j c, Znth [c0; c1] j = Some c -> is_column X j c).
  { intros c0 c1 I0 I1 j c Hj. pose proof (Znth_Some_lt _ _ _ Hj) as Bj. change (zlen [c0; c1]) with 2 in Bj.
    assert (Ej : j = 0 \/ j = 1) by lia. destruct Ej as [-> | ->]; cbn in Hj; injection Hj as <-; assumption. }
  assert (C : forall c0 c1 c2, is_column X 0 c0 -> is_column X 1 c1 -> is_column X 2 c2 -> forall j c, Znth [c0; c1; c2] j = Some c -> is_column X j c).
  { intros c0 c1 c2 I0 I1 I2 j c Hj. pose proof (Znth_Some_lt _ _ _ Hj) as Bj. change (zlen [c0; c1; c2]) with 3 in Bj.
    assert (Ej : j = 0 \/ j = 1 \/ j = 2) by lia. destruct Ej as [-> | [-> | ->]]; cbn in Hj; injection Hj as <-; assumption. }
  assert (D : dimension = None \/ (exists d, dimension = Some d /\ (d = 2 \/ d = 3)) \/ (exists d, dimension = Some d /\ d <> 2 /\ d <> 3)).
  { destruct dimension as [d|]; [right|now left]. destruct (Z.eq_dec d 2); [left; eauto|]. destruct (Z.eq_dec d 3); [left; eauto|]. right; eauto. }
  assert (V : (exists d, dimension = Some d /\ d <> 2 /\ d <> 3) \/
     (match dimension with None => Ok tt | Some d => if existsb (Z.eqb d) [2; 3] then Ok tt else Err ValueError end = Ok tt /\ (dimension = Some d0 \/ dimension = None /\ d0 = Z.min 3 ncols))).
  { destruct D as [D|[[d [D [E|E]]]|D]]; [right|right|right|now left]; rewrite D in *; cbn; subst; auto. }
  destruct V as [[d [E [N2 N3]]]|[E V]].
  { subst dimension. unfold existsb. rewrite (proj2 (Z.eqb_neq d 2)), (proj2 (Z.eqb_neq d 3)) by assumption. cbn. split; [discriminate|].
    intros [d' [[E|E] [_ [[[= F]|[F _]] _]]]]; try discriminate; lia. }
  rewrite E. cbn [bind]. clear E D.
  assert (U : forall d, (dimension = Some d \/ dimension = None /\ d = Z.min 3 ncols) -> d = d0).
  { intros d Hd. destruct Hd as [Hd|[Hd Hd']], V as [V|[V V']]; congruence. }
  destruct (Z.ltb_spec ncols d0) as [Lt|Ge].
  { split; [discriminate|]. intros [d [_ [H1 [H2 _]]]]. rewrite (U d H2) in H1. lia. }
  destruct (Z.eqb_spec d0 2) as [E2|N2].
  { destruct (column_ok ncols X 0 HX ltac:(lia)) as [c0 [E0 I0]]. destruct (column_ok ncols X 1 HX ltac:(lia)) as [c1 [E1 I1]]. rewrite E0, E1. cbn [bind]. split.
    - intros [= <-]. exists d0. split; [now left|]. split; [lia|]. split; [assumption|]. cbn [c_coords c_color]. split; [symmetry; exact E2|]. split; [now apply B|].
      split; [rewrite zlen_arange; pose proof (zlen_nonneg X); lia|]. intros i Hi. apply Znth_arange. lia.
    - intros [d [_ [_ [Hd [H1 [H2 [H3 H4]]]]]]]. f_equal. symmetry. apply (A [c0; c1] d); try assumption; [rewrite (U d Hd); exact E2|now apply B]. }
  destruct (Z.eqb_spec d0 3) as [E3|N3].
  { destruct (column_ok ncols X 0 HX ltac:(lia)) as [c0 [E0 I0]]. destruct (column_ok ncols X 1 HX ltac:(lia)) as [c1 [E1 I1]]. destruct (column_ok ncols X 2 HX ltac:(lia)) as [c2 [E2' I2]]. rewrite E0, E1, E2'. cbn [bind]. split.
    - intros [= <-]. exists d0. split; [now right|]. split; [lia|]. split; [assumption|]. cbn [c_coords c_color]. split; [symmetry; exact E3|]. split; [now apply C|].
      split; [rewrite zlen_arange; pose proof (zlen_nonneg X); lia|]. intros i Hi. apply Znth_arange. lia.
    - intros [d [_ [_ [Hd [H1 [H2 [H3 H4]]]]]]]. f_equal. symmetry. apply (A [c0; c1; c2] d); try assumption; [rewrite (U d Hd); exact E3|now apply C]. }
  split; [discriminate|]. intros [d [H1 [_ [H2 _]]]]. rewrite (U d H2) in H1. lia.
Qed.

(** Everything else is refused, a cloud with fewer than two coordinates by
    accident. *)
Theorem plot_point_cloud_errors ncols X :
  (forall d, d <> 2 -> d <> 3 -> plot_point_cloud ncols X (Some d) = Err ValueError) /\
  (forall d, d = 2 \/ d = 3 -> ncols < d -> plot_point_cloud ncols X (Some d) = Err ValueError) /\
  (ncols < 2 -> plot_point_cloud ncols X None = Err UnboundLocalError).
Proof.
  split; [|split].
  - intros d N2 N3. unfold plot_point_cloud, existsb. now rewrite (proj2 (Z.eqb_neq d 2)), (proj2 (Z.eqb_neq d 3)) by assumption.
  - intros d [-> | ->] L; unfold plot_point_cloud; cbn [existsb Z.eqb Pos.eqb orb bind]; rewrite (proj2 (Z.ltb_lt _ _)) by lia; reflexivity.
  - intros L. unfold plot_point_cloud. cbn [bind]. rewrite Z.min_r by lia. rewrite Z.ltb_irrefl.
    now rewrite (proj2 (Z.eqb_neq ncols 2)), (proj2 (Z.eqb_neq ncols 3)) by lia.
Qed.
Example point_cloud_example :
  let X := [[qz 1; qz 2; qz 3; qz 4]; [qz 5; qz 6; qz 7; qz 8]] in
  plot_point_cloud 4 X None = Ok (CloudPlot [[qz 1; qz 5]; [qz 2; qz 6]; [qz 3; qz 7]] [0; 1]) /\
  plot_point_cloud 4 X (Some 2) = Ok (CloudPlot [[qz 1; qz 5]; [qz 2; qz 6]] [0; 1]) /\
  plot_point_cloud 1 [[qz 1]] None = Err UnboundLocalError.
Proof. cbv zeta. split; [|split]; reflexivity. Qed.

(** ** plot_heatmap: images keep their values; the first row is on top exactly for
    origin "upper". *)
Theorem plot_heatmap_spec data x y origin h : plot_heatmap data x y origin = h <->
  h_z h = data /\ h_x h = x /\ h_y h = y /\ (h_reversed h = true <-> origin = Upper).
Proof.
  split.
  - intros <-. cbn. split; [reflexivity|]. split; [reflexivity|]. split; [reflexivity|]. destruct origin; split; congruence.
  - destruct h as [z hx hy r]; cbn. intros [-> [-> [-> H]]]. unfold plot_heatmap. f_equal. destruct origin, r; try reflexivity; [now symmetry; apply H|discriminate (proj1 H eq_refl)].
Qed.

(** ** Derivative.plot *)

Lemma derivative_plot_lines n Xs channels : 0 <= n ->
  let asked := match channels with None => arange n | Some l => l end in
  zlen asked <= zlen Xs ->
  exists f, plot_derivative n Xs channels = Ok f /\ zlen f = zlen asked /\
    forall k c y, Znth asked k = Some c -> Znth Xs k = Some y ->
      Znth f k = Some (Line c (map qz (arange (zlen Xs))) y).
Proof.
  intros Hn asked L. unfold plot_derivative. fold asked.
  destruct (mapM_total (fun e : Z * Z => do y <- py_get Xs (fst e); Ok (Line (snd e) (map qz (arange (zlen Xs))) y)) (mapi (fun ix channel => (ix, channel)) asked)) as [f E].
  { intros [ix c] Hin. apply In_Znth in Hin. destruct Hin as [k [Hk E]]. rewrite zlen_mapi in Hk. rewrite Znth_mapi in E. destruct (Znth asked k) eqn:Ea; [|discriminate]. injection E as <- <-.
    destruct (Znth_ex Xs k) as [y Ey]; [lia|]. exists (Line z (map qz (arange (zlen Xs))) y). cbn [fst snd]. rewrite (py_get_in Xs k y) by (lia || assumption). reflexivity. }
  exists f. split; [assumption|]. apply CurveThms2.mapM_iff in E. assert (LF := Forall2_zlen _ _ _ E). rewrite zlen_mapi in LF. split; [lia|].
  intros k c y Hc Hy. pose proof (Znth_Some_lt _ _ _ Hc) as Bk. destruct (Znth_ex f k) as [ln El]; [lia|].
  assert (Em : Znth (mapi (fun ix channel => (ix, channel)) asked) k = Some (k, c)) by (rewrite Znth_mapi, Hc; reflexivity).
  pose proof (Forall2_Znth _ _ _ k _ _ E Em El) as Q. cbn [fst snd] in Q. rewrite (py_get_in Xs k y) in Q by (lia || assumption). cbn [bind] in Q. congruence.
Qed.

Lemma mapM_first_err {A B} (f : A -> res B) l k e : 0 <= k < zlen l ->
  (forall i a, i < k -> Znth l i = Some a -> exists b, f a = Ok b) ->
  (forall a, Znth l k = Some a -> f a = Err e) -> mapM f l = Err e.
Proof.
  revert k. induction l as [|a l IH]; intros k Hk H1 H2; [cbn in Hk; lia|]. rewrite zlen_cons in Hk. cbn [mapM].
  destruct (Z.eq_dec k 0) as [->|N].
  - rewrite (H2 a) by apply Znth_0. reflexivity.
  - destruct (H1 0 a) as [b Hb]; [lia|apply Znth_0|]. rewrite Hb. cbn [bind]. rewrite (IH (k - 1)); [reflexivity|lia| |].
    + intros i a' Hi Ha. pose proof (Znth_Some_lt _ _ _ Ha). apply (H1 (i + 1)); [lia|]. rewrite Znth_cons by lia. rewrite <- Ha. f_equal. lia.
    + intros a' Ha. apply H2. rewrite Znth_cons by lia. assumption.
Qed.

(** By default the lines are the channels of the sample, under their numbers. *)
Theorem derivative_plot_spec Xs f : 
  (plot_derivative (zlen Xs) Xs None = Ok f <->
   zlen f = zlen Xs /\ forall k y, Znth Xs k = Some y -> Znth f k = Some (Line k (map qz (arange (zlen Xs))) y)).
Proof.
  pose proof (zlen_nonneg Xs) as N. destruct (derivative_plot_lines (zlen Xs) Xs None N) as [f' [E [L H]]]; [cbn; rewrite zlen_arange; lia|].
  rewrite zlen_arange in L by lia. rewrite E. split.
  - intros [= <-]. split; [assumption|]. intros k y Hk. pose proof (Znth_Some_lt _ _ _ Hk). apply H; [|assumption]. apply Znth_arange. lia.
  - intros [L' H']. f_equal. apply Znth_ext; [lia|]. intros k Hk. destruct (Znth_ex Xs k) as [y Ey]; [lia|]. rewrite (H' k y Ey). apply H; [|assumption]. apply Znth_arange. lia.
Qed.
(** The values of a channel are drawn over as many abscissae as there are channels,
    not over their own indices: *)
Theorem derivative_plot_abscissae_refuted :
  ~ forall Xs f k ln, plot_derivative (zlen Xs) Xs None = Ok f -> Znth f k = Some ln -> zlen (l_x ln) = zlen (l_y ln).
Proof. intros H. specialize (H [[qz 1; qz 2; qz 3]] _ 0 _ eq_refl eq_refl). discriminate. Qed.
(** and with an explicit list of channels, the line called "Channel c" need not
    show channel c. *)
Theorem derivative_plot_channels_refuted :
  ~ forall n Xs channels f k c ln, plot_derivative n Xs (Some channels) = Ok f ->
      Znth channels k = Some c -> Znth f k = Some ln -> Znth Xs c = Some (l_y ln).
Proof. intros H. specialize (H 2 [[qz 1]; [qz 2]] [1] _ 0 1 _ eq_refl eq_refl eq_refl). discriminate. Qed.
(** What is true: they are the first channels, and the selection is right when it
    is an initial segment. *)
Theorem derivative_plot_channels_initial n Xs m : 0 <= n -> 0 <= m <= zlen Xs ->
  exists f, plot_derivative n Xs (Some (arange m)) = Ok f /\ zlen f = m /\
    forall c, 0 <= c < m -> exists ln, Znth f c = Some ln /\ l_name ln = c /\ Znth Xs c = Some (l_y ln).
Proof.
  intros Hn Hm. destruct (derivative_plot_lines n Xs (Some (arange m)) Hn) as [f [E [L H]]]; [rewrite zlen_arange; lia|]. exists f. rewrite zlen_arange in L by lia.
  split; [assumption|]. split; [assumption|]. intros c Hc. destruct (Znth_ex Xs c) as [y Ey]; [lia|]. exists (Line c (map qz (arange (zlen Xs))) y).
  split; [apply H; [apply Znth_arange; lia|assumption]|]. now split.
Qed.
Theorem derivative_plot_too_many n Xs channels : zlen Xs < zlen channels ->
  plot_derivative n Xs (Some channels) = Err IndexError.
Proof.
  intros L. unfold plot_derivative. pose proof (zlen_nonneg Xs) as N.
  apply (mapM_first_err _ _ (zlen Xs)).
  - rewrite zlen_mapi. lia.
  - intros k e Hk He. pose proof (Znth_Some_lt _ _ _ He). rewrite Znth_mapi in He. destruct (Znth channels k); [|discriminate]. injection He as <-. destruct (Znth_ex Xs k) as [y Ey]; [lia|].
    cbn [fst snd]. rewrite (py_get_in Xs k y) by (lia || assumption). eexists. reflexivity.
  - intros e He. rewrite Znth_mapi in He. destruct (Znth channels (zlen Xs)); [|discriminate]. injection He as <-.
    cbn [fst snd]. unfold py_get. destruct (Z.ltb_spec (zlen Xs) 0); [lia|]. rewrite (Znth_None Xs (zlen Xs)) by lia. reflexivity.
Qed.
Example derivative_plot_example :
  plot_derivative 2 [[qz 1; qz 2; qz 3]; [qz 4; qz 5; qz 6]] None =
    Ok [Line 0 [qz 0; qz 1] [qz 1; qz 2; qz 3]; Line 1 [qz 0; qz 1] [qz 4; qz 5; qz 6]].
Proof. reflexivity. Qed.

(** ** plot_betti_curves and plot_betti_surfaces *)

Lemma item_py {A} (l : list A) i x : py_get l i = Ok x <-> item l i x.
Proof.
  unfold py_get, item. pose proof (zlen_nonneg l). destruct (Z.ltb_spec i 0) as [L|G].
  - rewrite (Z.add_comm i). destruct (Znth l (zlen l + i)) eqn:E.
    + split; [intros [= <-]; now right|]. intros [F|[_ F]]; [apply Znth_Some_lt in F; lia|congruence].
    + split; [discriminate|]. intros [F|[_ F]]; [apply Znth_Some_lt in F; lia|discriminate].
  - destruct (Znth l i) eqn:E.
    + split; [intros [= <-]; now left|]. intros [F|[F _]]; [congruence|lia].
    + split; [discriminate|]. intros [F|[F _]]; [discriminate|lia].
Qed.
Lemma asked_positions_ok n given dims : 0 <= n ->
  (asked_positions n given dims <-> dims = match given with None => arange n | Some l => l end).
Proof.
  intros Hn. destruct given as [l|]; cbn [asked_positions]; [easy|]. split.
  - intros [L H]. apply Znth_ext; [rewrite zlen_arange; lia|]. intros i Hi. rewrite H, Znth_arange by lia. reflexivity.
  - intros ->. split; [apply zlen_arange; lia|]. intros i Hi. now apply Znth_arange.
Qed.

(** One line per requested dimension, showing the Betti curve and the sampling at
    that position. *)
Theorem plot_betti_curves_spec V (betti : list V) samplings given f :
  plot_betti_curves betti samplings given = Ok f <->
  exists dims, asked_positions (zlen betti) given dims /\
    Forall2 (fun dim ln => l_name ln = dim /\ item samplings dim (l_x ln) /\ item betti dim (l_y ln)) dims f.
Proof.
  unfold plot_betti_curves. rewrite CurveThms2.mapM_iff. pose proof (zlen_nonneg betti) as N.
  assert (E : forall dim (ln : line Z V), (do x <- py_get samplings dim; do y <- py_get betti dim; Ok (Line dim x y)) = Ok ln <->
    l_name ln = dim /\ item samplings dim (l_x ln) /\ item betti dim (l_y ln)).
  { intros dim [nm x y]. cbn [l_name l_x l_y]. rewrite <- !item_py. destruct (py_get samplings dim); cbn [bind]; [destruct (py_get betti dim); cbn [bind]|].
    - split; [intros [= <- <- <-]; auto|]. intros [-> [[= <-] [= <-]]]. reflexivity.
    - split; [discriminate|]. intros [_ [_ ?]]. discriminate.
    - split; [discriminate|]. intros [_ [? _]]. discriminate. }
  split.
  - intros F. eexists. split; [apply asked_positions_ok; [assumption|reflexivity]|]. eapply Forall2_weaken; [|exact F]. intros a b H. now apply E.
  - intros [dims [A F]]. apply asked_positions_ok in A; [|assumption]. subst dims. eapply Forall2_weaken; [|exact F]. intros a b H. now apply E.
Qed.

(** The dimensions are taken as positions: after a fit on dimensions [1] alone,
    asking for dimension 1 fails, and by default curve k is called k whatever its
    dimension. *)
Theorem plot_betti_curves_missing V (betti : list V) samplings given dim :
  In dim given -> dim < - zlen betti \/ zlen betti <= dim ->
  (forall d, In d given -> exists x, item samplings d x) ->
  plot_betti_curves betti samplings (Some given) = Err IndexError.
Proof.
  intros Hin Hd HS. unfold plot_betti_curves.
  assert (G : py_get betti dim = Err IndexError).
  { destruct (py_get betti dim) eqn:E; [apply item_py in E; destruct E as [E|[_ E]]; apply Znth_Some_lt in E; lia|].
    unfold py_get in E. destruct (Znth betti (if dim <? 0 then dim + zlen betti else dim)); congruence. }
  revert HS. induction given as [|d t IH]; [easy|]. intros HS. cbn [mapM]. destruct (HS d (or_introl eq_refl)) as [x Hx]. apply item_py in Hx. rewrite Hx. cbn [bind].
  destruct Hin as [->|Hin]; [now rewrite G|]. destruct (py_get betti d) eqn:E; cbn [bind].
  - rewrite IH; [reflexivity|assumption|intros; apply HS; now right].
  - unfold py_get in E. destruct (Znth betti (if d <? 0 then d + zlen betti else d)); congruence.
Qed.

(** Several samples: one surface per requested dimension; the second axis counts
    the samples. *)
Theorem plot_betti_surfaces_spec V (curves : list (list V)) n samplings given f : 0 <= n -> zlen curves <> 1 ->
  (plot_betti_surfaces curves n (Some samplings) given = Ok (inr f) <->
   exists dims, asked_positions n given dims /\
     Forall2 (fun dim s => s_dim s = dim /\ item samplings dim (s_x s) /\
       zlen (s_y s) = zlen curves /\ (forall i, 0 <= i < zlen curves -> Znth (s_y s) i = Some i) /\
       Forall2 (fun c z => item c dim z) curves (s_z s)) dims f).
Proof.
  intros Hn HL. set (dims := match given with None => arange n | Some l => l end).
  pose proof (zlen_nonneg curves) as NC.
  set (g := fun dim => do x <- subscript (Some samplings) dim; do z <- mapM (fun b => py_get b dim) curves; Ok (Surface dim x (arange (zlen curves)) z)).
  assert (X : plot_betti_surfaces curves n (Some samplings) given = rmap inr (mapM g dims)).
  { unfold plot_betti_surfaces. destruct curves as [|b [|b' t]]; try reflexivity. now destruct HL. }
  rewrite X. clear X.
  assert (R : forall (r : res (list (surface V))), rmap (@inr (list (line Z V)) (list (surface V))) r = Ok (inr f) <-> r = Ok f) by (intros [r|e]; cbn; split; congruence).
  rewrite R, CurveThms2.mapM_iff.
  assert (E : forall dim s, g dim = Ok s <-> s_dim s = dim /\ item samplings dim (s_x s) /\ zlen (s_y s) = zlen curves /\ (forall i, 0 <= i < zlen curves -> Znth (s_y s) i = Some i) /\ Forall2 (fun c z => item c dim z) curves (s_z s)).
  { intros dim [d x y z]. cbn [s_dim s_x s_y s_z]. unfold g. cbn [subscript]. rewrite <- item_py. destruct (py_get samplings dim) as [x'|]; cbn [bind].
    2:{ split; [discriminate|]. intros [_ [? _]]. discriminate. }
    assert (FZ : Forall2 (fun c v => item c dim v) curves z <-> mapM (fun b => py_get b dim) curves = Ok z).
    { rewrite CurveThms2.mapM_iff. split; intros F; eapply Forall2_weaken; try exact F; intros a b; apply item_py. }
    rewrite FZ. destruct (mapM (fun b => py_get b dim) curves) as [z'|]; cbn [bind].
    - split.
      + intros [= <- <- <- <-]. split; [reflexivity|]. split; [reflexivity|]. split; [apply zlen_arange; lia|]. split; [|reflexivity]. intros; now apply Znth_arange.
      + intros [-> [[= <-] [Ly [Hy [= <-]]]]]. do 2 f_equal. apply Znth_ext; [rewrite zlen_arange; lia|]. intros i Hi. rewrite zlen_arange in Hi by lia. rewrite Hy, Znth_arange by lia. reflexivity.
    - split; [discriminate|]. intros [_ [_ [_ [_ ?]]]]. discriminate. }
  split.
  - intros F. exists dims. split; [now apply asked_positions_ok|]. eapply Forall2_weaken; [|exact F]. intros a b H. now apply E.
  - intros [dims' [A F]]. apply asked_positions_ok in A; [|assumption]. fold dims in A. subst dims'. eapply Forall2_weaken; [|exact F]. intros a b H. now apply E.
Qed.
(** One sample: the curves of plot_betti_curves. *)
Theorem plot_betti_surfaces_single V (b : list V) samplings given :
  plot_betti_surfaces [b] (zlen b) (Some samplings) given = rmap inl (plot_betti_curves b samplings given).
Proof. reflexivity. Qed.
(** Without samplings, as in the default call, nothing can be plotted. *)
Theorem plot_betti_surfaces_default V (curves : list (list V)) n : 1 <= n ->
  plot_betti_surfaces curves n None None = Err TypeError.
Proof.
  intros Hn. unfold plot_betti_surfaces. destruct (arange n) eqn:E.
  - apply (f_equal (@zlen Z)) in E. rewrite zlen_arange in E by lia. cbn in E. lia.
  - destruct curves as [|b [|b' t]]; reflexivity.
Qed.
Example betti_surface_example :
  plot_betti_surfaces [[[1; 2]; [3; 4]]; [[5; 6]; [7; 8]]] 2 (Some [[qz 0; qz 1]; [qz 2; qz 3]]) (Some [1]) =
    Ok (inr [Surface 1 [qz 2; qz 3] [0; 1] [[3; 4]; [7; 8]]]) /\
  plot_betti_curves [[1; 2]] [[qz 0; qz 1]] None = Ok [Line 0 [qz 0; qz 1] [1; 2]].
Proof. split; reflexivity. Qed.

Print Assumptions plot_point_cloud_spec.
Print Assumptions plot_point_cloud_errors.
Print Assumptions plot_heatmap_spec.
Print Assumptions derivative_plot_spec.
Print Assumptions derivative_plot_abscissae_refuted.
Print Assumptions derivative_plot_channels_refuted.
Print Assumptions derivative_plot_channels_initial.
Print Assumptions derivative_plot_too_many.
Print Assumptions plot_betti_curves_spec.
Print Assumptions plot_betti_curves_missing.
Print Assumptions plot_betti_surfaces_spec.
Print Assumptions plot_betti_surfaces_single.
Print Assumptions plot_betti_surfaces_default.
