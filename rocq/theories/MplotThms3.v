(** C72: hover texts, menu, label colours, sizes and geometry. *)
From Coq Require Import Ascii String Qround.
From Verif Require Import Np NpFacts Fl FlFacts VecModel ColorTypes ColorModel ColorSpec ColorThms2 ColorThms3 MplotTypes MplotModel MplotSpec MplotThms MplotThms2.
From Verif Require CurveThms2 PlotThms5.
Open Scope Z_scope.

(** ** Strings *)
Lemma append_assoc a b c : ((a ++ b) ++ c)%string = (a ++ (b ++ c))%string.
Proof. induction a; cbn; congruence. Qed.
Lemma rfind_none s : no_blank s -> rfind_space s = -1.
Proof. induction s as [|a s IH]; [reflexivity|]. cbn. intros [N B]. rewrite (IH B). cbn. destruct (Ascii.eqb_spec a " "); [contradiction|reflexivity]. Qed.
Lemma rfind_last p t : no_blank t -> rfind_space (p ++ String " " t) = Z.of_nat (String.length p).
Proof.
  intros B. induction p as [|a p IH]; [cbn; now rewrite (rfind_none t B)|]. cbn [append rfind_space String.length]. rewrite IH. rewrite (proj2 (Z.leb_le _ _)) by lia. lia.
Qed.
Lemma substring_app p q : substring 0 (String.length p) (p ++ q) = p.
Proof. induction p; cbn; [now destruct q|congruence]. Qed.
Lemma replace_ok fmt n p t x : no_blank t ->
  replace_summary_statistic fmt n (p ++ " " ++ t) x = (p ++ " " ++ fmt (round_to_n_sig_figs x n))%string.
Proof.
  intros B. unfold replace_summary_statistic, str_prefix. change (" " ++ t)%string with (String " " t). rewrite (rfind_last p t B). rewrite (proj2 (Z.ltb_ge _ _)) by lia. now rewrite Nat2Z.id, substring_app.
Qed.
Definition text_head (fz : Z -> string) (i : Z) (v : mnode) : string :=
  ("Node ID: " ++ fz i ++ "<br>Pullback set label: " ++ fz (n_pullback v) ++ "<br>"
  ++ "Partial cluster label: " ++ fz (n_cluster v) ++ "<br>Node size: " ++ fz (zlen (n_elements v)) ++ "<br>Summary statistic:")%string.
Lemma node_text_split fz fmt i v s :
  node_text fz fmt i (n_pullback v) (n_cluster v) (zlen (n_elements v)) s = (text_head fz i v ++ " " ++ fmt s)%string.
Proof. unfold node_text, text_head. rewrite !append_assoc. reflexivity. Qed.
Lemma node_text_hover fz fmt n i v c : hover_text fz fmt n i v c (node_text fz fmt i (n_pullback v) (n_cluster v) (zlen (n_elements v)) (round_to_n_sig_figs c n)).
Proof.
  exists (round_to_n_sig_figs c n). split; [apply round_shows|]. unfold node_text. cbn [String.concat]. rewrite !append_assoc. reflexivity.
Qed.
Lemma node_text_len fz fmt nodes : forall i stats, zlen stats = zlen nodes -> zlen (get_node_text fz fmt i nodes stats) = zlen nodes.
Proof.
  induction nodes as [|v nodes IH]; intros i [|s stats] L; cbn [get_node_text]; [reflexivity|reflexivity| |].
  - rewrite zlen_cons in L. pose proof (zlen_nonneg nodes). cbn in L. lia.
  - rewrite !zlen_cons in *. rewrite IH; lia.
Qed.
Lemma node_text_Znth fz fmt nodes : forall i stats k v s, Znth nodes k = Some v -> Znth stats k = Some s ->
  Znth (get_node_text fz fmt i nodes stats) k = Some (node_text fz fmt (i + k) (n_pullback v) (n_cluster v) (zlen (n_elements v)) s).
Proof.
  induction nodes as [|w nodes IH]; intros i stats k v s Ev Es; [now apply Znth_nil in Ev|]. destruct stats as [|s' stats]; [now apply Znth_nil in Es|]. cbn [get_node_text].
  pose proof (Znth_Some_lt _ _ _ Ev). destruct (Z.eq_dec k 0) as [->|N].
  - rewrite Znth_0 in Ev. rewrite Znth_0 in Es. rewrite Znth_0. injection Ev as ->. injection Es as ->. now rewrite Z.add_0_r.
  - rewrite Znth_cons in Ev by lia. rewrite Znth_cons in Es by lia. rewrite Znth_cons by lia. rewrite (IH (i + 1) stats (k - 1) v s Ev Es). now replace (i + 1 + (k - 1)) with (i + k) by lia.
Qed.
(** What the texts are. *)
Definition texts_of fz fmt n (nodes : list mnode) (cs : list Qc) : list string :=
  get_node_text fz fmt 0 nodes (map (fun x => round_to_n_sig_figs x n) cs).
Lemma texts_hover fz fmt n nodes cs : zlen cs = zlen nodes -> hover_texts fz fmt n nodes cs (texts_of fz fmt n nodes cs).
Proof.
  intros L. unfold texts_of. split; [apply node_text_len; now rewrite zlen_map|]. split; [assumption|]. intros i v c text Ev Ec Et.
  rewrite (node_text_Znth fz fmt nodes 0 _ i v (round_to_n_sig_figs c n)) in Et; [|assumption|now rewrite Znth_map, Ec]. injection Et as <-. apply node_text_hover.
Qed.
Lemma map2_len {A B C} (f : A -> B -> C) : forall a b, zlen a = zlen b -> zlen (map2 f a b) = zlen a.
Proof. induction a as [|x a IH]; intros [|y b] L; cbn [map2]; try reflexivity.
  - rewrite zlen_cons in L. pose proof (zlen_nonneg a). cbn in L. lia.
  - rewrite !zlen_cons in *. rewrite IH; lia.
Qed.
Lemma map2_Znth {A B C} (f : A -> B -> C) : forall a b k x y, Znth a k = Some x -> Znth b k = Some y -> Znth (map2 f a b) k = Some (f x y).
Proof.
  induction a as [|x a IH]; intros b k u w Ea Eb; [now apply Znth_nil in Ea|]. destruct b as [|y b]; [now apply Znth_nil in Eb|]. cbn [map2].
  pose proof (Znth_Some_lt _ _ _ Ea). destruct (Z.eq_dec k 0) as [->|N].
  - rewrite Znth_0 in Ea. rewrite Znth_0 in Eb. rewrite Znth_0. congruence.
  - rewrite Znth_cons in Ea by lia. rewrite Znth_cons in Eb by lia. rewrite Znth_cons by lia. now apply IH.
Qed.
(** Replacing the statistic in a text gives the text with the new statistic. *)
Lemma replace_texts fz fmt n nodes cs cs' : (forall s, no_blank (fmt s)) -> zlen cs = zlen nodes -> zlen cs' = zlen nodes ->
  map2 (replace_summary_statistic fmt n) (texts_of fz fmt n nodes cs) cs' = texts_of fz fmt n nodes cs'.
Proof.
  intros B L L'. assert (Lt : zlen (texts_of fz fmt n nodes cs) = zlen nodes) by (apply node_text_len; now rewrite zlen_map). assert (Lt' : zlen (texts_of fz fmt n nodes cs') = zlen nodes) by (apply node_text_len; now rewrite zlen_map).
  apply Znth_ext; [rewrite map2_len; congruence|]. rewrite map2_len by congruence. rewrite Lt. intros k Hk.
  destruct (Znth_ex nodes k Hk) as [v Ev]. destruct (Znth_ex cs k) as [c Ec]; [lia|]. destruct (Znth_ex cs' k) as [c' Ec']; [lia|].
  assert (T : forall ds d, Znth ds k = Some d -> Znth (texts_of fz fmt n nodes ds) k = Some (text_head fz k v ++ " " ++ fmt (round_to_n_sig_figs d n))%string).
  { intros ds d Ed. unfold texts_of. rewrite (node_text_Znth fz fmt nodes 0 _ k v (round_to_n_sig_figs d n) Ev) by now rewrite Znth_map, Ed. now rewrite node_text_split. }
  rewrite (map2_Znth _ _ _ k _ _ (T cs c Ec) Ec'). rewrite (T cs' c' Ec'). f_equal. apply replace_ok, B.
Qed.
Lemma hover_texts_unique fz fmt n nodes cs t t' : hover_texts fz fmt n nodes cs t -> hover_texts fz fmt n nodes cs t' -> t = t'.
Proof.
  intros [L [Lc H]] [L' [_ H']]. apply Znth_ext; [congruence|]. intros k Hk. destruct (Znth_ex t k Hk) as [x Ex]. destruct (Znth_ex t' k) as [y Ey]; [lia|]. rewrite Ex, Ey. f_equal.
  destruct (Znth_ex nodes k) as [v Ev]; [lia|]. destruct (Znth_ex cs k) as [c Ec]; [lia|]. destruct (H k v c x Ev Ec Ex) as [s [Hs ->]]. destruct (H' k v c y Ev Ec Ey) as [s' [Hs' ->]].
  now rewrite (shows_unique _ _ _ _ Hs Hs').
Qed.
Lemma node_colors_unique stat nodes col cs cs' : node_colors stat nodes col cs -> node_colors stat nodes col cs' -> cs = cs'.
Proof.
  intros H. revert cs'. induction H as [|v c nodes cs [vals [F E]] H IH]; intros cs' H'; inversion H' as [|? c' ? cs'' [vals' [F' E']] H'']; subst; [reflexivity|]. f_equal; [|now apply IH].
  assert (X : vals = vals'); [|congruence]. clear - F F'. revert vals' F'. induction F as [|i x is xs Ei F IHF]; intros vals' F'; inversion F'; subst; [reflexivity|]. f_equal; [congruence|]. now apply IHF.
Qed.
Lemma node_colors_len stat nodes col cs : node_colors stat nodes col cs -> zlen cs = zlen nodes.
Proof. intros H. symmetry. exact (Forall2_zlen _ _ _ H). Qed.

(** ** Label colours *)
Lemma np_min_ok l m : np_min l = Ok m -> In m l /\ forall x, In x l -> (m <= x)%Qc.
Proof.
  destruct l as [|x l]; [discriminate|]. cbn [np_min]. intros [= <-]. 
  assert (G : forall l x, (In (fold_left (fun a b => if Qcleb a b then a else b) l x) (x :: l)) /\ forall y, In y (x :: l) -> (fold_left (fun a b => if Qcleb a b then a else b) l x <= y)%Qc).
  { clear. induction l as [|y l IH]; intros x; [split; [now left|intros y [<-|[]]; apply Qcle_refl]|]. cbn [fold_left]. destruct (IH (if Qcleb x y then x else y)) as [A B]. split.
    - destruct (Qcleb x y); cbn in A |- *; tauto.
    - assert (M : ((if Qcleb x y then x else y) <= x)%Qc /\ ((if Qcleb x y then x else y) <= y)%Qc) by (destruct (Qcleb_spec x y); split; try apply Qcle_refl; [assumption|]; now apply Qclt_le_weak, Qcnot_le_lt).
      intros z [<-|[<-|I]]; [eapply Qcle_trans; [apply B; now left|tauto]|eapply Qcle_trans; [apply B; now left|tauto]|apply B; now right]. }
  apply G.
Qed.
Lemma np_max_ok l m : np_max l = Ok m -> In m l /\ forall x, In x l -> (x <= m)%Qc.
Proof.
  destruct l as [|x l]; [discriminate|]. cbn [np_max]. intros [= <-]. 
  assert (G : forall l x, (In (fold_left (fun a b => if Qcleb a b then b else a) l x) (x :: l)) /\ forall y, In y (x :: l) -> (y <= fold_left (fun a b => if Qcleb a b then b else a) l x)%Qc).
  { clear. induction l as [|y l IH]; intros x; [split; [now left|intros y [<-|[]]; apply Qcle_refl]|]. cbn [fold_left]. destruct (IH (if Qcleb x y then y else x)) as [A B]. split.
    - destruct (Qcleb x y); cbn in A |- *; tauto.
    - assert (M : (x <= (if Qcleb x y then y else x))%Qc /\ (y <= (if Qcleb x y then y else x))%Qc) by (destruct (Qcleb_spec x y); split; try apply Qcle_refl; [assumption|]; now apply Qclt_le_weak, Qcnot_le_lt).
      intros z [<-|[<-|I]]; [eapply Qcle_trans; [|apply B; now left]; tauto|eapply Qcle_trans; [|apply B; now left]; tauto|apply B; now right]. }
  apply G.
Qed.
Lemma min_max_ok l : l <> [] -> exists mn mx, np_min l = Ok mn /\ np_max l = Ok mx /\ extremes l mn mx.
Proof.
  intros NE. destruct l as [|x l]; [contradiction|]. eexists _, _. split; [reflexivity|]. split; [reflexivity|].
  destruct (np_min_ok (x :: l) _ eq_refl) as [A B]. destruct (np_max_ok (x :: l) _ eq_refl) as [C D]. split; [assumption|]. split; [assumption|]. intros y Hy. split; auto.
Qed.
Lemma varies_lt l mn mx : extremes l mn mx -> varies l -> (mn < mx)%Qc.
Proof.
  intros [A [B C]] [x [y [Ix [Iy N]]]]. destruct (C x Ix) as [X1 X2]. destruct (C y Iy) as [Y1 Y2]. apply Qcnot_le_lt. intros L. apply N.
  transitivity mn; [|symmetry]; apply Qcle_antisym; try assumption; eapply Qcle_trans; eassumption.
Qed.
Lemma not_varies_ge l mn mx : extremes l mn mx -> ~ varies l -> (mx <= mn)%Qc.
Proof.
  intros [A [B C]] N. apply Qcnot_lt_le. intros L. apply N. exists mn, mx. split; [assumption|]. split; [assumption|]. intros E. rewrite E in L. now apply (Qclt_not_eq _ _ L).
Qed.
Lemma varies_dec l : varies l \/ ~ varies l.
Proof.
  destruct l as [|x l]; [right; intros [a [b [[] _]]]|]. destruct (min_max_ok (x :: l)) as [mn [mx [_ [_ E]]]]; [discriminate|]. destruct (Qc_lt_le_dec mn mx) as [L|L].
  - left. exists mn, mx. split; [apply E|]. split; [apply E|]. intros E'. rewrite E' in L. now apply (Qclt_not_eq _ _ L).
  - right. intros V. apply (Qcle_not_lt _ _ L). now apply (varies_lt (x :: l)).
Qed.
Lemma label_colors_ok scale stops l mn mx : proper_scale scale stops -> extremes l mn mx -> varies l ->
  exists out, hex_colors_for_vals l mn mx scale = Ok out /\ label_colors stops l out.
Proof.
  intros [S [I V]] E W. destruct (hex_colors_spec l mn mx scale stops (varies_lt _ _ _ E W) S I) as [out [Eo F]]; [intros s c; apply V|]. exists out. split; [assumption|]. exists mn, mx. auto.
Qed.
Lemma label_colors_err scale l mn mx : extremes l mn mx -> ~ varies l -> hex_colors_for_vals l mn mx scale = Err ValueError.
Proof. intros E W. unfold hex_colors_for_vals. rewrite (proj1 (colors_errors l mn mx scale)); [reflexivity|]. now apply (not_varies_ge l). Qed.

(** ** Sizes *)
Lemma py_max_ok l m : py_max l = Ok m -> In m l /\ forall k, In k l -> k <= m.
Proof.
  destruct l as [|x l]; [discriminate|]. cbn [py_max]. intros [= <-].
  assert (G : forall l x, In (fold_left Z.max l x) (x :: l) /\ forall y, In y (x :: l) -> y <= fold_left Z.max l x).
  { clear. induction l as [|y l IH]; intros x; [split; [now left|intros y [<-|[]]; apply Z.le_refl]|]. cbn [fold_left]. destruct (IH (Z.max x y)) as [A B]. split.
    - destruct A as [A|A]; [|now right; right]. rewrite <- A. destruct (Z.max_spec x y) as [[_ ->]|[_ ->]]; [right|]; now left.
    - intros z [<-|[<-|I]]; [eapply Z.le_trans; [|apply B; now left]; lia|eapply Z.le_trans; [|apply B; now left]; lia|apply B; now right]. }
  apply G.
Qed.
Lemma sizeref_ok nodes scale : nodes <> [] -> scale <> 0%Qc ->
  exists r, set_node_sizeref (get_node_size (map n_elements nodes)) scale = Ok r /\ sized nodes scale (get_node_size (map n_elements nodes)) r.
Proof.
  intros NE Hs. unfold set_node_sizeref. assert (M : exists m, py_max (get_node_size (map n_elements nodes)) = Ok m) by (destruct nodes; [contradiction|]; cbn; eauto). destruct M as [m E]. rewrite E. cbn [bind].
  destruct (Qceqb_spec scale 0%Qc); [contradiction|]. eexists. split; [reflexivity|]. unfold sized, get_node_size. rewrite map_map. split; [reflexivity|]. exists m.
  destruct (py_max_ok _ _ E) as [A B]. unfold get_node_size in A, B. rewrite map_map in A, B. split; [assumption|]. split; [assumption|]. field. assumption.
Qed.

(** ** Geometry *)
Lemma axes_ok dim g pos : 0 <= dim -> positions dim g pos -> exists axes, mapM (fun a => mapM (fun p => py_get p a) pos) (arange dim) = Ok axes /\ draws_nodes dim pos axes.
Proof.
  intros Hd [_ P]. assert (C : forall a, 0 <= a < dim -> exists l, is_column pos a l).
  { intros a Ha. clear - P Ha. induction pos as [|p pos IH]; [exists []; constructor|]. destruct IH as [l Hl]; [intros; apply P; now right|]. destruct (Znth_ex p a) as [x Ex]; [rewrite (P p (or_introl eq_refl)); assumption|]. exists (x :: l). now constructor. }
  destruct (PlotThms5.mapM_total (fun a => mapM (fun p => py_get p a) pos) (arange dim)) as [axes E].
  { intros a Ha. apply In_arange in Ha. destruct (C a Ha) as [l Hl]. exists l. apply column_get; [lia|assumption]. }
  exists axes. split; [assumption|]. apply mapM_Ok_inv in E. split; [rewrite <- (Forall2_zlen _ _ _ E); now apply zlen_arange|]. intros a l El.
  assert (Ba : 0 <= a < dim). { pose proof (Znth_Some_lt _ _ _ El) as B. rewrite <- (Forall2_zlen _ _ _ E), zlen_arange in B by lia. assumption. }
  pose proof (Forall2_Znth _ _ _ _ _ _ E (Znth_arange dim a Ba) El) as X. destruct (C a Ba) as [l' Hl']. cbn in X. rewrite (column_get pos a l' ltac:(lia) Hl') in X. injection X as <-. assumption.
Qed.
Lemma edge_axis_ok dim g pos a : 0 <= a < dim -> positions dim g pos ->
  (forall s t, In (s, t) (g_edges g) -> 0 <= s < zlen (g_nodes g) /\ 0 <= t < zlen (g_nodes g)) ->
  exists l, edge_axis pos (g_edges g) a = Ok l /\ zlen l = 3 * zlen (g_edges g) /\
    forall k s t, Znth (g_edges g) k = Some (s, t) ->
      exists p q x y, Znth pos s = Some p /\ Znth pos t = Some q /\ Znth p a = Some x /\ Znth q a = Some y /\
        Znth l (3 * k) = Some (Some x) /\ Znth l (3 * k + 1) = Some (Some y) /\ Znth l (3 * k + 2) = Some None.
Proof.
  intros Ha [Lp P] HE. unfold edge_axis. rewrite <- Lp in HE. clear Lp. set (n := zlen pos) in *. induction (g_edges g) as [|[s0 t0] es IH]; [exists []; split; [reflexivity|split; [reflexivity|intros k s t E; now apply Znth_nil in E]]|].
  destruct IH as [l [E [L H]]]; [intros; apply HE; now right|]. destruct (HE s0 t0 (or_introl eq_refl)) as [B1 B2].
  destruct (Znth_ex pos s0 B1) as [p Ep]. destruct (Znth_ex pos t0 B2) as [q Eq]. destruct (Znth_ex p a) as [x Ex]; [rewrite (P p); [assumption|]; eapply Znth_In; eassumption|]. destruct (Znth_ex q a) as [y Ey]; [rewrite (P q); [assumption|]; eapply Znth_In; eassumption|].
  cbn [mapM fst snd]. rewrite (py_get_in pos s0 p), (py_get_in pos t0 q) by (assumption || lia). cbn [bind]. rewrite (py_get_in p a x), (py_get_in q a y) by (assumption || lia). cbn [bind].
  destruct (mapM _ es) as [ll|]; [|discriminate]. cbn [bind] in E |- *. injection E as <-. exists (Some x :: Some y :: None :: concat ll). cbn [concat app]. split; [reflexivity|]. split; [rewrite !zlen_cons; lia|].
  intros k s t Ek. pose proof (Znth_Some_lt _ _ _ Ek) as Bk. destruct (Z.eq_dec k 0) as [->|N].
  - rewrite Znth_0 in Ek. injection Ek as <- <-. exists p, q, x, y. do 4 (split; [assumption|]). cbn. auto.
  - rewrite Znth_cons in Ek by lia. destruct (H _ _ _ Ek) as [p' [q' [x' [y' [A1 [A2 [A3 [A4 [A5 [A6 A7]]]]]]]]]]. exists p', q', x', y'. do 4 (split; [assumption|]).
    rewrite !Znth_cons by lia. replace (3 * k - 1 - 1 - 1) with (3 * (k - 1)) by lia. replace (3 * k + 1 - 1 - 1 - 1) with (3 * (k - 1) + 1) by lia. replace (3 * k + 2 - 1 - 1 - 1) with (3 * (k - 1) + 2) by lia. auto.
Qed.
Lemma edges_ok dim g pos : 0 <= dim -> positions dim g pos ->
  (forall s t, In (s, t) (g_edges g) -> 0 <= s < zlen (g_nodes g) /\ 0 <= t < zlen (g_nodes g)) ->
  exists axes, mapM (edge_axis pos (g_edges g)) (arange dim) = Ok axes /\ draws_edges dim pos (g_edges g) axes.
Proof.
  intros Hd P HE. destruct (PlotThms5.mapM_total (edge_axis pos (g_edges g)) (arange dim)) as [axes E].
  { intros a Ha. apply In_arange in Ha. destruct (edge_axis_ok dim g pos a Ha P HE) as [l [El _]]. eauto. }
  exists axes. split; [assumption|]. apply mapM_Ok_inv in E. split; [rewrite <- (Forall2_zlen _ _ _ E); now apply zlen_arange|]. intros a l El.
  assert (Ba : 0 <= a < dim). { pose proof (Znth_Some_lt _ _ _ El) as B. rewrite <- (Forall2_zlen _ _ _ E), zlen_arange in B by lia. assumption. }
  pose proof (Forall2_Znth _ _ _ _ _ _ E (Znth_arange dim a Ba) El) as X. destruct (edge_axis_ok dim g pos a Ba P HE) as [l' [El' H]]. cbn in X. rewrite El' in X. injection X as <-. assumption.
Qed.
