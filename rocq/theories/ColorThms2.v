(** C73: colours of values along a colour scale (theorems). *)
From Coq Require Import Ascii String.
From Verif Require Import Np NpFacts Fl FlFacts VecModel VecSpec VecProofs2 ColorTypes ColorModel ColorSpec ColorThms.
From Verif Require CurveThms2.
Open Scope Z_scope.

Definition valid_stops (S : list (Qc * t3 Qc)) : Prop := forall s c, In (s, c) S -> valid_color c.

Lemma Znth_fst {A B} (S : list (A * B)) i a : Znth (map fst S) i = Some a -> exists b, Znth S i = Some (a, b).
Proof. rewrite Znth_map. destruct (Znth S i) as [[a' b]|]; [|discriminate]. intros [= <-]. eauto. Qed.

Lemma increasing_nondecreasing S : increasing_stops S <-> nondecreasing (map fst S) = true.
Proof.
  rewrite nondecreasing_iff. split.
  - intros H i j a b B Ha Hb. apply Znth_fst in Ha, Hb. destruct Ha as [c Ha], Hb as [c' Hb]. eauto.
  - intros H i j s c s' c' B Ha Hb. apply (H i j s s' B); rewrite Znth_map; [now rewrite Ha|now rewrite Hb].
Qed.

Lemma frac_range x s s' : (s <= x)%Qc -> (x < s')%Qc -> (0 <= (x - s) / (s' - s))%Qc /\ ((x - s) / (s' - s) <= 1)%Qc.
Proof.
  intros A B. assert (P : (0 < s' - s)%Qc) by qlra. assert (I : (0 < / (s' - s))%Qc).
  { unfold Qclt in *. rewrite this_inv. apply Qinv_lt_0_compat. exact P. }
  assert (NZ : (s' - s)%Qc <> 0%Qc) by (intros E; rewrite E in P; now apply (Qclt_not_eq _ _ P)).
  assert (E : ((s' - s) * / (s' - s))%Qc = 1%Qc) by now apply Qcmult_inv_r. unfold Qcdiv. remember (/ (s' - s))%Qc as r. split.
  - assert (A' : (0 <= x - s)%Qc) by qlra. pose proof (Qcmult_le_compat_r 0 (x - s) r A' (Qclt_le_weak _ _ I)). qlra.
  - rewrite <- E. apply Qcmult_le_compat_r; [qlra|now apply Qclt_le_weak].
Qed.

Lemma color_row_at S x : S <> [] -> increasing_stops S -> valid_stops S ->
  exists c, color_row S x (zlen (filter (fun b => Qcleb b x) (map fst S))) = Ok c /\ color_at S x c.
Proof.
  intros NE I V. set (n := zlen (filter _ _)). assert (LP : 1 <= zlen S) by (destruct S; [easy|rewrite zlen_cons; pose proof (zlen_nonneg S); lia]).
  assert (CP : forall i s c, Znth S i = Some (s, c) -> ((s <= x)%Qc <-> i < n)).
  { intros i s c H. rewrite <- Qcleb_le. apply (count_prefix (fun b => Qcleb b x) (map fst S)); [|now rewrite Znth_map, H].
    intros i' j' a b B Ha Hb Hx. apply Qcleb_le in Hx. apply Qcleb_le. apply Znth_fst in Ha, Hb. destruct Ha as [ca Ha], Hb as [cb Hb].
    apply Qcle_trans with b; [|assumption]. eapply I; [|exact Ha|exact Hb]. lia. }
  destruct (filter_le_len (fun b => Qcleb b x) (map fst S)) as [N0 N1]. fold n in N0, N1. rewrite zlen_map in N1.
  destruct (Znth_ex S 0) as [[s0 c0] H0]; [lia|]. destruct (Znth_ex S (zlen S - 1)) as [[s1 c1] H1]; [lia|].
  destruct (color_row_ends S x s0 c0 s1 c1 H0 H1) as [[r0 [E0 R0]] [r1 [E1 R1]]]; [apply (V s0); now apply Znth_In in H0|apply (V s1); now apply Znth_In in H1|].
  destruct (Z.eq_dec n 0) as [Z0|NZ].
  - rewrite Z0. exists r0. split; [assumption|]. left. exists s0, c0. split; [assumption|]. split; [|assumption].
    apply Qcnot_le_lt. intros L. apply (CP 0 s0 c0 H0) in L. lia.
  - destruct (Z.eq_dec n (zlen S)) as [ZN|NN].
    + rewrite ZN. exists r1. split; [assumption|]. right. left. exists s1, c1. split; [assumption|]. split; [|assumption]. apply (CP _ _ _ H1). lia.
    + destruct (Znth_ex S (n - 1)) as [[s c] H]; [lia|]. destruct (Znth_ex S (n - 1 + 1)) as [[s' c'] H']; [lia|].
      assert (L : (s <= x)%Qc) by (apply (CP _ _ _ H); lia). assert (L' : (x < s')%Qc) by (apply Qcnot_le_lt; intros L'; apply (CP _ _ _ H') in L'; lia).
      destruct (frac_range x s s' L L') as [T0 T1].
      destruct (color_row_mid S x (n - 1) s c s' c' H H') as [r [E R]]; [apply (V s); now apply Znth_In in H|apply (V s'); now apply Znth_In in H'|assumption|assumption|].
      replace (n - 1 + 1) with n in E by lia. exists r. split; [assumption|]. right. right. exists (n - 1), s, c, s', c'. auto.
Qed.

Lemma color_at_unique S x c c' : increasing_stops S -> color_at S x c -> color_at S x c' -> c = c'.
Proof.
  intros I H H'.
  assert (A : forall i j s cc s' cc', Znth S i = Some (s, cc) -> Znth S j = Some (s', cc') -> (s' <= x)%Qc -> (x < s)%Qc -> j < i).
  { intros i j s cc s' cc' Hi Hj L L'. destruct (Z_lt_le_dec j i) as [|G]; [assumption|]. pose proof (I i j s cc s' cc' G Hi Hj) as Q. exfalso. apply (Qclt_not_le _ _ L'). now apply Qcle_trans with s'. }
  destruct H as [[s0 [c0 [H [L R]]]]|[[s1 [c1 [H [L R]]]]|[k [s [c0 [s' [c1 [H [H2 [L [L2 R]]]]]]]]]]];
  destruct H' as [[t0 [d0 [G [M Q]]]]|[[t1 [d1 [G [M Q]]]]|[m [t [d0 [t' [d1 [G [G2 [M [M2 Q]]]]]]]]]]].
  - rewrite H in G. injection G as -> ->. eapply rounds3_unique; eassumption.
  - pose proof (A _ _ _ _ _ _ H G M L). apply Znth_Some_lt in G. lia.
  - pose proof (A _ _ _ _ _ _ H G M L). apply Znth_Some_lt in G. lia.
  - pose proof (A _ _ _ _ _ _ G H L M). apply Znth_Some_lt in H. lia.
  - rewrite H in G. injection G as -> ->. eapply rounds3_unique; eassumption.
  - pose proof (A _ _ _ _ _ _ G2 H L M2). apply Znth_Some_lt in G2. lia.
  - pose proof (A _ _ _ _ _ _ G H L M). apply Znth_Some_lt in H. lia.
  - pose proof (A _ _ _ _ _ _ H2 G M L2). apply Znth_Some_lt in H2. lia.
  - pose proof (A _ _ _ _ _ _ H2 G M L2). pose proof (A _ _ _ _ _ _ G2 H L M2). assert (m = k) by lia. subst m. rewrite H in G. injection G as -> ->. rewrite H2 in G2. injection G2 as -> ->. eapply rounds3_unique; eassumption.
Qed.

(** ** Reading the scale *)
Lemma parse_ok rgb l vs : l <> [] -> Forall2 (color_denotes rgb) l vs -> parse_colors l = Ok vs.
Proof.
  intros NE F. destruct rgb.
  - assert (E : parse_colors l = mapM (fun c => match c with RgbText v => Ok v | _ => Err ValueError end) l).
    { destruct F as [|c v l vs H F]; [easy|]. destruct c; cbn in H; try contradiction; destruct H as [H _]; try discriminate; reflexivity. }
    rewrite E. apply mapM_Forall2. clear -F. induction F as [|c v l vs H F IH]; constructor; [|assumption]. destruct c; cbn in H; try contradiction; destruct H as [H H']; try discriminate; congruence.
  - assert (E : parse_colors l = mapM (fun c => match c with HexText s => rmap (t3map qz) (hex_to_rgb s) | _ => Err ValueError end) l).
    { destruct F as [|c v l vs H F]; [easy|]. destruct c; cbn in H; try contradiction; destruct H as [H _]; try discriminate; reflexivity. }
    rewrite E. apply mapM_Forall2. clear -F. induction F as [|c v l vs H F IH]; constructor; [|assumption]. destruct c; cbn in H; try contradiction; destruct H as [H H']; try discriminate.
    destruct H' as [z [D ->]]. now rewrite (hex_to_rgb_spec _ _ D).
Qed.

Lemma combine_split_map {A B} (S : list (A * B)) : combine (map fst S) (map snd S) = S.
Proof. induction S as [|[a b] S IH]; cbn; [reflexivity|now rewrite IH]. Qed.

Lemma scale_ok cs S : scale_denotes cs S -> exists colors,
  (match cs with
   | Stops [] | Colors [] => Err IndexError
   | Stops l => Ok (map fst l, map snd l)
   | Colors l => Ok (fst (linspace 0 1 (zlen l)), l)
   end) = Ok (map fst S, colors) /\ parse_colors colors = Ok (map snd S).
Proof.
  intros [NE [rgb H]]. destruct cs as [l|l].
  - assert (E1 : map fst l = map fst S) by (induction H as [|p st l S [E _] F IH]; [easy|]; cbn; rewrite E; destruct F; [reflexivity|]; rewrite IH; [reflexivity|discriminate]).
    assert (F : Forall2 (color_denotes rgb) (map snd l) (map snd S)) by (clear -H; induction H as [|p st l S [_ E] F IH]; constructor; assumption).
    exists (map snd l). split; [destruct l; [inversion H; subst; easy|]; now rewrite <- E1|]. apply (parse_ok rgb); [|assumption]. destruct l; [inversion H; subst; easy|discriminate].
  - destruct H as [F P]. exists l. assert (L : zlen l = zlen S) by (rewrite (Forall2_zlen _ _ _ F); apply zlen_map).
    assert (NL : l <> []) by (intros ->; destruct S; [easy|discriminate L]). split; [|now apply (parse_ok rgb)].
    assert (E : fst (linspace 0 1 (zlen l)) = map fst S).
    { pose proof (zlen_nonneg S). assert (LS : 1 <= zlen S) by (destruct S; [easy|rewrite zlen_cons; pose proof (zlen_nonneg S); lia]).
      unfold linspace. rewrite L. destruct (Z.eqb_spec (zlen S) 1) as [E1|N1]; cbn [fst].
      - destruct S as [|[s c] [|q t]]; [easy| |rewrite !zlen_cons in E1; pose proof (zlen_nonneg t); lia]. cbn. rewrite (P 0 s c eq_refl). reflexivity.
      - apply Znth_ext; [rewrite zlen_tabZ, zlen_map; lia|]. intros i Hi. rewrite zlen_tabZ in Hi by lia. rewrite Znth_tabZ by lia. rewrite Znth_map. destruct (Znth_ex S i) as [[s c] Ei]; [lia|]. rewrite Ei.
        cbn [option_map fst]. rewrite (P i s c Ei). destruct (Z.eqb_spec (zlen S) 1); [lia|]. unfold Qcdiv. f_equal. ring. }
    destruct l; [easy|]. now rewrite <- E.
Qed.

Lemma colors_rows vals vmin vmax cs S : (vmin < vmax)%Qc -> scale_denotes cs S ->
  colors_for_vals vals vmin vmax cs =
  mapM (fun v => do i <- digitize (map fst S) ((v - vmin) / (vmax - vmin))%Qc; color_row S ((v - vmin) / (vmax - vmin))%Qc i) vals.
Proof.
  intros Hv HS. unfold colors_for_vals. destruct (Qcleb_spec vmax vmin) as [L|_]; [now apply Qclt_not_le in Hv|].
  destruct (scale_ok cs S HS) as [colors [E1 E2]]. rewrite E1. cbn [bind]. rewrite E2. cbn [bind]. rewrite combine_split_map. reflexivity.
Qed.

(** Each value v gets the colour at (v - vmin) / (vmax - vmin). *)
Theorem colors_for_vals_spec vals vmin vmax cs stops out :
  (vmin < vmax)%Qc -> scale_denotes cs stops -> increasing_stops stops -> valid_stops stops ->
  (colors_for_vals vals vmin vmax cs = Ok out <->
   Forall2 (fun v c => color_at stops ((v - vmin) / (vmax - vmin)) c) vals out).
Proof.
  intros Hv HS I V. rewrite (colors_rows _ _ _ _ _ Hv HS). rewrite CurveThms2.mapM_iff.
  assert (NE : stops <> []) by apply HS.
  assert (E : forall v c, (do i <- digitize (map fst stops) ((v - vmin) / (vmax - vmin))%Qc; color_row stops ((v - vmin) / (vmax - vmin))%Qc i) = Ok c <-> color_at stops ((v - vmin) / (vmax - vmin)) c).
  { intros v c. unfold digitize. rewrite (proj1 (increasing_nondecreasing stops) I). cbn [bind]. destruct (color_row_at stops ((v - vmin) / (vmax - vmin))%Qc NE I V) as [c' [E H]]. rewrite E.
    split; [intros [= <-]; assumption|]. intros H'. f_equal. eapply color_at_unique; eassumption. }
  split; intros F; (induction F as [|v c vals' out' H F IH]; constructor; [now apply E|assumption]).
Qed.

(** Equally spaced colours always have increasing positions, and hexadecimal
    colours valid channels. *)
Theorem colors_increasing l stops : scale_denotes (Colors l) stops -> increasing_stops stops.
Proof.
  intros [NE [rgb [_ P]]] i j s c s' c' B Hi Hj. rewrite (P i s c Hi), (P j s' c' Hj). destruct (Z.eqb_spec (zlen stops) 1); [apply Qcle_refl|].
  pose proof (Znth_Some_lt _ _ _ Hi). pose proof (Znth_Some_lt _ _ _ Hj).
  unfold Qcdiv. apply Qcmult_le_compat_r; [apply qz_le; lia|]. apply Qclt_le_weak. unfold Qclt. rewrite this_inv. apply Qinv_lt_0_compat. rewrite this_qz. change 0%Q with (inject_Z 0). rewrite <- Zlt_Qlt. lia.
Qed.
Theorem hex_valid s c : hex_denotes s c -> valid_color (t3map qz c).
Proof.
  intros [a0 [a1 [a2 [a3 [a4 [a5 [d0 [d1 [d2 [d3 [d4 [d5 [-> [[H0 _] [[H1 _] [[H2 _] [[H3 _] [[H4 _] [[H5 _] ->]]]]]]]]]]]]]]]]]]].
  unfold valid_color, t3map, channel; cbn [red green blue]. rewrite <- qz_0. rewrite !qz_le. lia.
Qed.

(** The strings returned denote those colours. *)
Lemma color_at_range S x c : increasing_stops S -> valid_stops S -> color_at S x c ->
  0 <= red c < 256 /\ 0 <= green c < 256 /\ 0 <= blue c < 256.
Proof.
  intros I V H.
  assert (R : forall q z, channel q -> rounds q z -> 0 <= z < 256).
  { intros q z Hq Hz. assert (A : rounds 0%Qc 0). { split; rewrite qz_0; [apply Qclt_le_weak|]; reflexivity. }
    assert (B : rounds (qz 255) 255). { assert (P : (0 < Q2Qc (1 # 2))%Qc) by reflexivity. split; qlra. }
    destruct Hq as [Q0 Q1]. pose proof (rounds_mono _ _ _ _ Q0 A Hz). pose proof (rounds_mono _ _ _ _ Q1 Hz B). lia. }
  assert (R3 : forall q, valid_color q -> rounds3 q c -> 0 <= red c < 256 /\ 0 <= green c < 256 /\ 0 <= blue c < 256).
  { intros q [V1 [V2 V3]] [R1 [R2 R3]]. split; [exact (R _ _ V1 R1)|]. split; [exact (R _ _ V2 R2)|exact (R _ _ V3 R3)]. }
  destruct H as [[s0 [c0 [H [L Q]]]]|[[s1 [c1 [H [L Q]]]]|[k [s [c0 [s' [c1 [H [H2 [L [L2 Q]]]]]]]]]]].
  - apply (R3 c0); [apply (V s0); now apply Znth_In in H|assumption].
  - apply (R3 c1); [apply (V s1); now apply Znth_In in H|assumption].
  - apply Znth_In in H, H2. apply V in H, H2. destruct (frac_range x s s' L L2) as [T0 T1]. destruct H as [A1 [A2 A3]], H2 as [B1 [B2 B3]].
    eapply R3; [|exact Q]. unfold valid_color, between; cbn [red green blue]. split; [|split]; now apply between_channel.
Qed.
Theorem hex_colors_spec vals vmin vmax cs stops :
  (vmin < vmax)%Qc -> scale_denotes cs stops -> increasing_stops stops -> valid_stops stops ->
  exists out, hex_colors_for_vals vals vmin vmax cs = Ok out /\
    Forall2 (fun v s => exists c, hex_denotes s c /\ color_at stops ((v - vmin) / (vmax - vmin)) c) vals out.
Proof.
  intros Hv HS I V. assert (NE : stops <> []) by apply HS.
  assert (E : exists out, Forall2 (fun v c => color_at stops ((v - vmin) / (vmax - vmin)) c) vals out).
  { induction vals as [|v vals [out IH]]; [exists []; constructor|]. destruct (color_row_at stops ((v - vmin) / (vmax - vmin))%Qc NE I V) as [c [_ H]]. exists (c :: out). now constructor. }
  destruct E as [out F]. unfold hex_colors_for_vals. rewrite (proj2 (colors_for_vals_spec vals vmin vmax cs stops out Hv HS I V) F). eexists. split; [reflexivity|].
  clear HS. induction F as [|v c vals out H F IH]; constructor; [|assumption]. exists c. split; [|assumption]. destruct (color_at_range _ _ _ I V H) as [A [B C]]. now apply rgb_to_hex_spec.
Qed.

(** The least value gets the first colour and the greatest the last one. *)
Theorem colors_extremes vmin vmax cs stops c0 c1 :
  (vmin < vmax)%Qc -> scale_denotes cs stops -> increasing_stops stops -> valid_stops stops ->
  Znth stops 0 = Some (0%Qc, c0) -> Znth stops (zlen stops - 1) = Some (1%Qc, c1) ->
  (forall s c, Znth stops 1 = Some (s, c) -> (0 < s)%Qc) ->
  exists z0 z1, colors_for_vals [vmin; vmax] vmin vmax cs = Ok [z0; z1] /\ rounds3 c0 z0 /\ rounds3 c1 z1.
Proof.
  intros Hv HS I V H0 H1 H2. assert (NE : stops <> []) by apply HS.
  assert (NZ : (vmax - vmin)%Qc <> 0%Qc) by (intros E; assert (E' : vmax = vmin) by qlra; rewrite E' in Hv; now apply (Qclt_not_eq _ _ Hv)).
  assert (X0 : ((vmin - vmin) / (vmax - vmin))%Qc = 0%Qc) by (field; assumption). assert (X1 : ((vmax - vmin) / (vmax - vmin))%Qc = 1%Qc) by (field; assumption).
  destruct (color_row_at stops 0%Qc NE I V) as [z0 [_ A0]]. destruct (color_row_at stops 1%Qc NE I V) as [z1 [_ A1]]. exists z0, z1.
  split; [apply (colors_for_vals_spec _ _ _ _ _ _ Hv HS I V); constructor; [now rewrite X0|]; constructor; [now rewrite X1|constructor]|].
  assert (ND : forall s c, Znth stops (zlen stops - 1) = Some (s, c) -> s = 1%Qc) by (intros s c H; rewrite H in H1; congruence).
  split.
  - destruct A0 as [[s [c [H [L R]]]]|[[s [c [H [L R]]]]|[k [s [c [s' [c' [H [H' [L [L' R]]]]]]]]]]].
    + rewrite H in H0. injection H0 as -> ->. now apply Qclt_not_eq in L.
    + rewrite (ND _ _ H) in L. exfalso. apply (Qcle_not_lt _ _ L). reflexivity.
    + assert (K : k = 0).
      { pose proof (Znth_Some_lt _ _ _ H). destruct (Z.eq_dec k 0) as [|N]; [assumption|]. exfalso. destruct (Znth_ex stops 1) as [[s1 d1] E1]; [lia|]. pose proof (H2 _ _ E1).
        assert (Q : (s1 <= s)%Qc) by (eapply (I 1 k); [lia|eassumption|eassumption]). apply (Qclt_not_le _ _ H4). now apply Qcle_trans with s. }
      subst k. rewrite H in H0. injection H0 as -> ->. assert (E : between ((0 - 0) / (s' - 0)) c0 c' = c0).
      { unfold between, Qcdiv. destruct c0 as [cr cg cb]; cbn [red green blue]. f_equal; ring. }
      now rewrite E in R.
  - destruct A1 as [[s [c [H [L R]]]]|[[s [c [H [L R]]]]|[k [s [c [s' [c' [H [H' [L [L' R]]]]]]]]]]].
    + rewrite H in H0. injection H0 as -> ->. exfalso. apply (Qclt_not_le _ _ L). apply Qclt_le_weak. reflexivity.
    + rewrite H in H1. injection H1 as -> ->. assumption.
    + exfalso. assert (Q : (s' <= 1)%Qc) by (eapply (I (k + 1) (zlen stops - 1)); [apply Znth_Some_lt in H'; lia|eassumption|eassumption]). now apply (Qclt_not_le _ _ L').
Qed.
