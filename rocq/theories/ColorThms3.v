(** C73: order, units, decreasing scales and errors of the colour interpolation. *)
From Coq Require Import Ascii String.
From Verif Require Import Np NpFacts Fl FlFacts VecModel VecSpec VecProofs2 ColorTypes ColorModel ColorSpec ColorThms ColorThms2.
From Verif Require CurveThms2.
Open Scope Z_scope.

(** ** Order: if a channel increases along the scale, larger values get larger
    channels. *)
Lemma between_bounds a b t : (a <= b)%Qc -> (0 <= t)%Qc -> (t <= 1)%Qc -> (a <= a + t * (b - a))%Qc /\ (a + t * (b - a) <= b)%Qc.
Proof.
  intros L T0 T1. assert (D : (0 <= b - a)%Qc) by qlra. pose proof (Qcmult_le_compat_r 0 t (b - a) T0 D). pose proof (Qcmult_le_compat_r t 1 (b - a) T1 D). split; qlra.
Qed.

Theorem colors_monotone (ch : forall A, t3 A -> A) S x x' z z' :
  ch = @red \/ ch = @green \/ ch = @blue ->
  increasing_stops S ->
  (forall i j s c s' c', i <= j -> Znth S i = Some (s, c) -> Znth S j = Some (s', c') -> (ch Qc c <= ch Qc c')%Qc) ->
  (x <= x')%Qc -> color_at S x z -> color_at S x' z' -> ch Z z <= ch Z z'.
Proof.
  intros HC I M L H H'.
  assert (CR : forall c w, rounds3 c w -> rounds (ch Qc c) (ch Z w)) by (intros c w [A [B C]]; destruct HC as [->|[->| ->]]; assumption).
  assert (CB : forall t a b, ch Qc (between t a b) = (ch Qc a + t * (ch Qc b - ch Qc a))%Qc) by (intros; destruct HC as [->|[->| ->]]; reflexivity).
  assert (A : forall i j s cc s' cc', Znth S i = Some (s, cc) -> Znth S j = Some (s', cc') -> (s' <= x')%Qc -> (x' < s)%Qc -> j < i).
  { intros i j s cc s' cc' Hi Hj L1 L2. destruct (Z_lt_le_dec j i) as [|G]; [assumption|]. pose proof (I i j s cc s' cc' G Hi Hj) as Q. exfalso. apply (Qclt_not_le _ _ L2). now apply Qcle_trans with s'. }
  assert (V : exists q q', rounds q (ch Z z) /\ rounds q' (ch Z z') /\ (q <= q')%Qc).
  { destruct H as [[s0 [c0 [H [K R]]]]|[[s1 [c1 [H [K R]]]]|[k [s [c0 [s' [c1 [H [H2 [K [K2 R]]]]]]]]]]];
    destruct H' as [[t0 [d0 [G [N Q]]]]|[[t1 [d1 [G [N Q]]]]|[m [t [d0 [t' [d1 [G [G2 [N [N2 Q]]]]]]]]]]]; apply CR in R, Q; rewrite ?CB in R; rewrite ?CB in Q.
    - eexists; eexists; split; [exact R|]; split; [exact Q|]. apply (M 0 0 s0 c0 t0 d0); [lia|assumption|assumption].
    - eexists; eexists; split; [exact R|]; split; [exact Q|]. apply (M 0 (zlen S - 1) s0 c0 t1 d1); [apply Znth_Some_lt in G; lia|assumption|assumption].
    - eexists; eexists; split; [exact R|]; split; [exact Q|]. destruct (frac_range x' t t' N N2) as [T0 T1].
      destruct (between_bounds (ch Qc d0) (ch Qc d1) _ ltac:(apply (M m (m + 1) t d0 t' d1); [lia|assumption|assumption]) T0 T1) as [B1 B2].
      apply Qcle_trans with (ch Qc d0); [|assumption]. apply (M 0 m s0 c0 t d0); [apply Znth_Some_lt in G; lia|assumption|assumption].
    - exfalso. assert (E : (s1 <= x')%Qc) by now apply Qcle_trans with x. pose proof (A _ _ _ _ _ _ G H E N). apply Znth_Some_lt in H. lia.
    - eexists; eexists; split; [exact R|]; split; [exact Q|]. apply (M (zlen S - 1) (zlen S - 1) s1 c1 t1 d1); [lia|assumption|assumption].
    - exfalso. assert (E : (s1 <= x')%Qc) by now apply Qcle_trans with x. pose proof (A _ _ _ _ _ _ G2 H E N2). apply Znth_Some_lt in G2. lia.
    - exfalso. assert (E : (s <= x')%Qc) by now apply Qcle_trans with x. pose proof (A _ _ _ _ _ _ G H E N). apply Znth_Some_lt in H. lia.
    - eexists; eexists; split; [exact R|]; split; [exact Q|]. destruct (frac_range x s s' K K2) as [T0 T1].
      destruct (between_bounds (ch Qc c0) (ch Qc c1) _ ltac:(apply (M k (k + 1) s c0 s' c1); [lia|assumption|assumption]) T0 T1) as [B1 B2].
      apply Qcle_trans with (ch Qc c1); [assumption|]. apply (M (k + 1) (zlen S - 1) s' c1 t1 d1); [apply Znth_Some_lt in H2; lia|assumption|assumption].
    - eexists; eexists; split; [exact R|]; split; [exact Q|]. destruct (frac_range x s s' K K2) as [T0 T1]. destruct (frac_range x' t t' N N2) as [U0 U1].
      assert (E : (s <= x')%Qc) by now apply Qcle_trans with x. pose proof (A _ _ _ _ _ _ G2 H E N2) as KM. destruct (Z.eq_dec k m) as [->|NE].
      + rewrite H in G. injection G as <- <-. rewrite H2 in G2. injection G2 as <- <-.
        assert (LE : (ch Qc c0 <= ch Qc c1)%Qc) by (apply (M m (m + 1) s c0 s' c1); [lia|assumption|assumption]).
        assert (LF : ((x - s) / (s' - s) <= (x' - s) / (s' - s))%Qc).
        { unfold Qcdiv. apply Qcmult_le_compat_r; [qlra|]. apply Qclt_le_weak. unfold Qclt. rewrite this_inv. apply Qinv_lt_0_compat. assert (P : (0 < s' - s)%Qc) by qlra. exact P. }
        assert (D : (0 <= ch Qc c1 - ch Qc c0)%Qc) by qlra. pose proof (Qcmult_le_compat_r _ _ _ LF D) as F. set (u := ((x - s) / (s' - s))%Qc) in *. set (u' := ((x' - s) / (s' - s))%Qc) in *. clearbody u u'. qlra.
      + destruct (between_bounds (ch Qc c0) (ch Qc c1) _ ltac:(apply (M k (k + 1) s c0 s' c1); [lia|assumption|assumption]) T0 T1) as [B1 B2].
        destruct (between_bounds (ch Qc d0) (ch Qc d1) _ ltac:(apply (M m (m + 1) t d0 t' d1); [lia|assumption|assumption]) U0 U1) as [C1 C2].
        apply Qcle_trans with (ch Qc c1); [assumption|]. apply Qcle_trans with (ch Qc d0); [|assumption]. apply (M (k + 1) m s' c1 t d0); [lia|assumption|assumption]. }
  destruct V as [q [q' [R [R' LL]]]]. eapply rounds_mono; eassumption.
Qed.

(** ** The unit and origin of the values do not matter. *)
Theorem colors_affine a b vals vmin vmax cs : (0 < a)%Qc ->
  colors_for_vals (map (fun v => a * v + b)%Qc vals) (a * vmin + b)%Qc (a * vmax + b)%Qc cs = colors_for_vals vals vmin vmax cs.
Proof.
  intros Ha. unfold colors_for_vals.
  assert (E : Qcleb (a * vmax + b)%Qc (a * vmin + b)%Qc = Qcleb vmax vmin).
  { destruct (Qcleb_spec vmax vmin) as [L|L].
    - apply Qcleb_le. pose proof (Qcmult_le_compat_r _ _ a L (Qclt_le_weak _ _ Ha)). qlra.
    - destruct (Qcleb_spec (a * vmax + b) (a * vmin + b))%Qc as [L'|]; [|reflexivity]. exfalso. apply L. apply Qcnot_lt_le. intros G.
      pose proof (Qcmult_lt_compat_r _ _ a Ha G). apply (Qcle_not_lt _ _ L'). qlra. }
  rewrite E. destruct (Qcleb_spec vmax vmin) as [L|L]; [reflexivity|].
  assert (NZ : (vmax - vmin)%Qc <> 0%Qc). { intros Z. apply L. assert (vmax = vmin) by qlra. subst. apply Qcle_refl. }
  assert (NA : a <> 0%Qc) by (intros ->; now apply Qclt_not_eq in Ha).
  assert (X : forall v, ((a * v + b - (a * vmin + b)) / (a * vmax + b - (a * vmin + b)))%Qc = ((v - vmin) / (vmax - vmin))%Qc).
  { intros v. field. split; [assumption|]. intros Z. apply NZ. assert (Z' : (a * (vmax - vmin))%Qc = 0%Qc) by (rewrite <- Z; ring). apply Qcmult_integral in Z'. now destruct Z'. }
  destruct (match cs with Stops [] | Colors [] => Err IndexError | Stops l => Ok (map fst l, map snd l) | Colors l => Ok (fst (linspace 0 1 (zlen l)), l) end) as [[scale colors]|e]; [|reflexivity].
  cbn [bind]. destruct (parse_colors colors) as [cols|e]; [|reflexivity]. cbn [bind]. rewrite mapM_map. apply mapM_ext. intros v _. rewrite X. reflexivity.
Qed.

(** ** Decreasing scales are read backwards. *)
Theorem colors_decreasing vals vmin vmax cs stops out :
  (vmin < vmax)%Qc -> scale_denotes cs stops -> increasing_stops (rev stops) -> ~ increasing_stops stops -> valid_stops stops ->
  (colors_for_vals vals vmin vmax cs = Ok out <->
   Forall2 (fun v c => color_at (rev stops) ((v - vmin) / (vmax - vmin)) c) vals out).
Proof.
  intros Hv HS I NI V. rewrite (colors_rows _ _ _ _ _ Hv HS). rewrite CurveThms2.mapM_iff.
  assert (NE : stops <> []) by apply HS. set (S := stops) in *.
  assert (DG : forall x, digitize (map fst S) x = Ok (zlen (filter (fun b => negb (Qcleb b x)) (map fst S)))).
  { intros x. unfold digitize. destruct (nondecreasing (map fst S)) eqn:E; [now apply increasing_nondecreasing in E|]. rewrite <- map_rev. rewrite (proj1 (increasing_nondecreasing (rev S)) I). f_equal.
    clear. induction (map fst S) as [|s l IH]; [reflexivity|]. cbn [filter]. destruct (Qcleb s x); cbn [negb]; rewrite !zlen_cons; lia. }
  assert (ID : forall i j s c s' c', i <= j -> Znth S i = Some (s, c) -> Znth S j = Some (s', c') -> (s' <= s)%Qc).
  { intros i j s c s' c' B Hi Hj. pose proof (Znth_Some_lt _ _ _ Hi). pose proof (Znth_Some_lt _ _ _ Hj). apply (I (zlen S - 1 - j) (zlen S - 1 - i) s' c' s c); [lia| |]; rewrite Znth_rev by lia; [rewrite <- Hj|rewrite <- Hi]; f_equal; lia. }
  assert (R : forall x, exists c, color_row S x (zlen (filter (fun b => negb (Qcleb b x)) (map fst S))) = Ok c /\ color_at (rev S) x c).
  { intros x. set (n := zlen (filter _ _)). assert (LP : 1 <= zlen S) by (destruct S; [easy|rewrite zlen_cons; pose proof (zlen_nonneg S); lia]).
    assert (CP : forall i s c, Znth S i = Some (s, c) -> ((x < s)%Qc <-> i < n)).
    { intros i s c H. assert (Q : negb (Qcleb s x) = true <-> i < n).
      { apply (count_prefix (fun b => negb (Qcleb b x)) (map fst S)); [|now rewrite Znth_map, H].
        intros i' j' a b B Ha Hb Hx. apply Znth_fst in Ha, Hb. destruct Ha as [ca Ha], Hb as [cb Hb]. destruct (Qcleb_spec b x) as [|Lb]; [discriminate|]. destruct (Qcleb_spec a x) as [La|]; [|reflexivity].
        exfalso. apply Lb. apply Qcle_trans with a; [|assumption]. apply (ID i' j' a ca b cb); [lia|assumption|assumption]. }
      rewrite <- Q. destruct (Qcleb_spec s x) as [Ls|Ls]; cbn; split; intros; try easy; [now apply Qclt_not_le in H0|now apply Qcnot_le_lt]. }
    destruct (filter_le_len (fun b => negb (Qcleb b x)) (map fst S)) as [N0 N1]. fold n in N0, N1. rewrite zlen_map in N1.
    destruct (Znth_ex S 0) as [[s0 c0] H0]; [lia|]. destruct (Znth_ex S (zlen S - 1)) as [[s1 c1] H1]; [lia|].
    destruct (color_row_ends S x s0 c0 s1 c1 H0 H1) as [[r0 [E0 R0]] [r1 [E1 R1]]]; [apply (V s0); now apply Znth_In in H0|apply (V s1); now apply Znth_In in H1|].
    destruct (Z.eq_dec n 0) as [Z0|NZ].
    - rewrite Z0. exists r0. split; [assumption|]. right. left. exists s0, c0. split; [rewrite zlen_rev, Znth_rev by lia; rewrite <- H0; f_equal; lia|]. split; [|assumption].
      apply Qcnot_lt_le. intros L. apply (CP 0 s0 c0 H0) in L. lia.
    - destruct (Z.eq_dec n (zlen S)) as [ZN|NN].
      + rewrite ZN. exists r1. split; [assumption|]. left. exists s1, c1. split; [rewrite Znth_rev by lia; rewrite <- H1; f_equal; lia|]. split; [|assumption]. apply (CP _ _ _ H1). lia.
      + destruct (Znth_ex S (n - 1)) as [[s c] H]; [lia|]. destruct (Znth_ex S (n - 1 + 1)) as [[s' c'] H']; [lia|].
        assert (L : (x < s)%Qc) by (apply (CP _ _ _ H); lia). assert (L' : (s' <= x)%Qc) by (apply Qcnot_lt_le; intros L'; apply (CP _ _ _ H') in L'; lia).
        destruct (frac_range x s' s L' L) as [T0 T1].
        assert (ND : (s - s')%Qc <> 0%Qc) by (intros Z; assert (ZZ : s = s') by qlra; subst; now apply (Qclt_not_le _ _ L)).
        assert (ND' : (s' - s)%Qc <> 0%Qc) by (intros Z; apply ND; qlra).
        assert (EF : ((x - s) / (s' - s))%Qc = (1 - (x - s') / (s - s'))%Qc) by (field; auto).
        assert (F0 : (0 <= (x - s) / (s' - s))%Qc) by (rewrite EF; clear - T0 T1; set (u := ((x - s') / (s - s'))%Qc) in *; clearbody u; qlra).
        assert (F1 : ((x - s) / (s' - s) <= 1)%Qc) by (rewrite EF; clear - T0 T1; set (u := ((x - s') / (s - s'))%Qc) in *; clearbody u; qlra).
        destruct (color_row_mid S x (n - 1) s c s' c' H H') as [r [E R]]; [apply (V s); now apply Znth_In in H|apply (V s'); now apply Znth_In in H'|assumption|assumption|].
        replace (n - 1 + 1) with n in E by lia. exists r. split; [assumption|]. right. right. exists (zlen S - 1 - n), s', c', s, c.
        split; [rewrite Znth_rev by lia; rewrite <- H'; f_equal; lia|]. split; [rewrite Znth_rev by lia; rewrite <- H; f_equal; lia|]. split; [assumption|]. split; [assumption|].
        rewrite EF in R. replace (between ((x - s') / (s - s')) c' c) with (between (1 - (x - s') / (s - s')) c c'); [assumption|]. unfold between. destruct c as [cr cg cb], c' as [cr' cg' cb']; cbn [red green blue]. f_equal; ring. }
  assert (E : forall v c, (do i <- digitize (map fst S) ((v - vmin) / (vmax - vmin))%Qc; color_row S ((v - vmin) / (vmax - vmin))%Qc i) = Ok c <-> color_at (rev S) ((v - vmin) / (vmax - vmin)) c).
  { intros v c. rewrite DG. cbn [bind]. destruct (R ((v - vmin) / (vmax - vmin))%Qc) as [c' [E H]]. rewrite E. split; [intros [= <-]; assumption|]. intros H'. f_equal. eapply color_at_unique; eassumption. }
  split; intros F; (induction F as [|v c vals' out' H F IH]; constructor; [now apply E|assumption]).
Qed.

(** ** Errors *)
Theorem colors_errors vals vmin vmax cs :
  ((vmax <= vmin)%Qc -> colors_for_vals vals vmin vmax cs = Err ValueError) /\
  ((vmin < vmax)%Qc -> cs = Stops [] \/ cs = Colors [] -> colors_for_vals vals vmin vmax cs = Err IndexError) /\
  ((vmin < vmax)%Qc -> forall l, cs = Colors (OtherText :: l) \/ (exists s t, cs = Stops ((s, OtherText) :: t)) ->
     colors_for_vals vals vmin vmax cs = Err ValueError) /\
  ((vmin < vmax)%Qc -> vals <> [] -> forall stops, scale_denotes cs stops ->
     ~ increasing_stops stops -> ~ increasing_stops (rev stops) -> colors_for_vals vals vmin vmax cs = Err ValueError).
Proof.
  split; [|split; [|split]].
  - intros L. unfold colors_for_vals. now rewrite (proj2 (Qcleb_le _ _)).
  - intros L H. unfold colors_for_vals. destruct (Qcleb_spec vmax vmin); [now apply Qclt_not_le in L|]. destruct H as [-> | ->]; reflexivity.
  - intros L l H. unfold colors_for_vals. destruct (Qcleb_spec vmax vmin); [now apply Qclt_not_le in L|]. destruct H as [-> |[s [t ->]]]; reflexivity.
  - intros L NV S HS N1 N2. rewrite (colors_rows _ _ _ _ _ L HS). destruct vals as [|v vals]; [easy|]. cbn [mapM]. unfold digitize.
    destruct (nondecreasing (map fst S)) eqn:E1; [now apply increasing_nondecreasing in E1|]. rewrite <- map_rev.
    destruct (nondecreasing (map fst (rev S))) eqn:E2; [now apply increasing_nondecreasing in E2|]. reflexivity.
Qed.

(** ** Examples *)
Definition ex_scale : colorscale_t := Colors [HexText "#000000"; HexText "#0A64fF"; HexText "#ffffff"].
Example ex_colors : hex_colors_for_vals (map qz [2; 3; 4; 5; 6]) (qz 2) (qz 6) ex_scale =
  Ok ["#000000"; "#053280"; "#0a64ff"; "#85b2ff"; "#ffffff"]%string.
Proof. vm_compute. reflexivity. Qed.
Example ex_scale_denotes : exists stops, scale_denotes ex_scale stops /\ valid_stops stops /\ zlen stops = 3.
Proof.
  exists [(0%Qc, t3map qz (T3 0 0 0)); ((qz 1 / qz 2)%Qc, t3map qz (T3 10 100 255)); (1%Qc, t3map qz (T3 255 255 255))].
  assert (D : forall a d, 0 <= d < 16 -> hex_char d = a -> digit_value a d) by (intros a d H <-; now apply hex_char_ok).
  assert (H0 : hex_denotes "#000000" (T3 0 0 0)).
  { do 6 exists "0"%char. exists 0, 0, 0, 0, 0, 0. split; [reflexivity|]. do 6 (split; [apply D; [lia|reflexivity]|]). reflexivity. }
  assert (H1 : hex_denotes "#0A64fF" (T3 10 100 255)).
  { exists "0"%char, "A"%char, "6"%char, "4"%char, "f"%char, "F"%char, 0, 10, 6, 4, 15, 15. split; [reflexivity|]. 
    split; [apply D; [lia|reflexivity]|]. split; [split; [lia|now right]|]. do 3 (split; [apply D; [lia|reflexivity]|]). split; [split; [lia|now right]|]. reflexivity. }
  assert (H2 : hex_denotes "#ffffff" (T3 255 255 255)).
  { do 6 exists "f"%char. exists 15, 15, 15, 15, 15, 15. split; [reflexivity|]. do 6 (split; [apply D; [lia|reflexivity]|]). reflexivity. }
  split; [|split; [|reflexivity]].
  - split; [discriminate|]. exists false. split.
    + repeat constructor; eexists; (split; [eassumption|reflexivity]).
    + intros k s c Hk. pose proof (Znth_Some_lt _ _ _ Hk) as B. change (zlen _) with 3 in B. assert (K : k = 0 \/ k = 1 \/ k = 2) by lia.
      destruct K as [->|[->| ->]]; injection Hk as <- <-; apply Qc_is_canon; reflexivity.
  - intros s c [E|[E|[E|[]]]]; injection E as <- <-; eapply hex_valid; eassumption.
Qed.
Example ex_rgb : colors_for_vals [qz 1] (qz 0) (qz 4) (Stops [(0%Qc, RgbText (T3 (qz 0) (qz 10) (qz 255))); (1%Qc, RgbText (T3 (qz 2) (qz 20) (qz 0)))]) =
  Ok [T3 1 13 191].
Proof. vm_compute. reflexivity. Qed.

Print Assumptions hex_to_rgb_spec.
Print Assumptions rgb_to_hex_spec.
Print Assumptions hex_round_trip.
Print Assumptions colors_for_vals_spec.
Print Assumptions colors_increasing.
Print Assumptions hex_valid.
Print Assumptions hex_colors_spec.
Print Assumptions colors_extremes.
Print Assumptions colors_monotone.
Print Assumptions colors_affine.
Print Assumptions colors_decreasing.
Print Assumptions colors_errors.
