(** C73: colours of values along a colour scale. *)
From Coq Require Import Ascii String Qround.
From Verif Require Import Np NpFacts Fl FlFacts VecModel VecSpec VecProofs2 ColorTypes ColorModel ColorSpec.
From Verif Require CurveThms2.
Open Scope Z_scope.

(** ** Hexadecimal colours *)
Lemma hex_digit_ok a d : digit_value a d -> hex_digit a = Ok d /\ (N_of_ascii a =? 35)%N = false.
Proof.
  intros [Hd H]. assert (E : In d (arange 16)) by (apply In_arange; lia). cbn in E.
  repeat (destruct E as [<-|E]; [destruct H as [-> | ->]; split; reflexivity|]). destruct E.
Qed.
Lemma hex_char_ok n : 0 <= n < 16 -> digit_value (hex_char n) n.
Proof.
  intros Hn. split; [assumption|]. left. assert (E : In n (arange 16)) by (apply In_arange; lia). cbn in E.
  repeat (destruct E as [<-|E]; [reflexivity|]). destruct E.
Qed.
Theorem hex_to_rgb_spec s c : hex_denotes s c -> hex_to_rgb s = Ok c.
Proof.
  intros [a0 [a1 [a2 [a3 [a4 [a5 [d0 [d1 [d2 [d3 [d4 [d5 [-> [H0 [H1 [H2 [H3 [H4 [H5 ->]]]]]]]]]]]]]]]]]]].
  destruct (hex_digit_ok _ _ H0) as [E0 N0]. unfold hex_to_rgb. cbn [string_of_list_ascii lstrip_hash]. change (N_of_ascii "#"%char =? 35)%N with true. cbn iota.
  rewrite N0. cbn [substring int16 int16_from]. rewrite E0, (proj1 (hex_digit_ok _ _ H1)), (proj1 (hex_digit_ok _ _ H2)), (proj1 (hex_digit_ok _ _ H3)), (proj1 (hex_digit_ok _ _ H4)), (proj1 (hex_digit_ok _ _ H5)).
  cbn [bind]. do 2 f_equal; lia.
Qed.
Theorem rgb_to_hex_spec c : 0 <= red c < 256 -> 0 <= green c < 256 -> 0 <= blue c < 256 -> hex_denotes (rgb_to_hex c) c.
Proof.
  destruct c as [r g b]. cbn [red green blue]. intros Hr Hg Hb.
  assert (D : forall n, 0 <= n < 256 -> 0 <= n / 16 < 16 /\ 0 <= n mod 16 < 16 /\ n = 16 * (n / 16) + n mod 16).
  { intros n Hn. split; [split; [apply Z.div_pos; lia|apply Z.div_lt_upper_bound; lia]|]. split; [apply Z.mod_pos_bound; lia|apply Z.div_mod; lia]. }
  destruct (D r Hr) as [R1 [R2 R3]], (D g Hg) as [G1 [G2 G3]], (D b Hb) as [B1 [B2 B3]].
  exists (hex_char (r / 16)), (hex_char (r mod 16)), (hex_char (g / 16)), (hex_char (g mod 16)), (hex_char (b / 16)), (hex_char (b mod 16)),
    (r / 16), (r mod 16), (g / 16), (g mod 16), (b / 16), (b mod 16).
  split; [reflexivity|]. do 6 (split; [now apply hex_char_ok|]). f_equal; assumption.
Qed.
(** Hence writing a colour and reading it again gives it back. *)
Theorem hex_round_trip c : 0 <= red c < 256 -> 0 <= green c < 256 -> 0 <= blue c < 256 -> hex_to_rgb (rgb_to_hex c) = Ok c.
Proof. intros. apply hex_to_rgb_spec. now apply rgb_to_hex_spec. Qed.

(** ** Rounding *)
Lemma half_half : (Q2Qc (1 # 2) + Q2Qc (1 # 2))%Qc = 1%Qc.
Proof. apply Qc_is_canon. reflexivity. Qed.
Lemma rounds_unique q z z' : rounds q z -> rounds q z' -> z = z'.
Proof.
  intros [A B] [A' B']. pose proof half_half as H. assert (L1 : (qz z < qz (z' + 1))%Qc) by (rewrite qz_add, qz_1; qlra).
  assert (L2 : (qz z' < qz (z + 1))%Qc) by (rewrite qz_add, qz_1; qlra). apply (proj1 (qz_lt _ _)) in L1. apply (proj1 (qz_lt _ _)) in L2. lia.
Qed.
Lemma rounds3_unique c z z' : rounds3 c z -> rounds3 c z' -> z = z'.
Proof.
  intros [A [B C]] [A' [B' C']]. destruct z, z'; cbn in *. f_equal; eapply rounds_unique; eassumption.
Qed.
Lemma rounds_mono q q' z z' : (q <= q')%Qc -> rounds q z -> rounds q' z' -> z <= z'.
Proof.
  intros L [A B] [A' B']. pose proof half_half as H. assert (L1 : (qz z < qz (z' + 1))%Qc) by (rewrite qz_add, qz_1; qlra). apply (proj1 (qz_lt _ _)) in L1. lia.
Qed.
Lemma to_uint8_ok q : channel q -> rounds q (to_uint8 (q + Q2Qc (1 # 2))).
Proof.
  intros [L U]. unfold to_uint8. pose proof half_half as HH. assert (P : (0 < Q2Qc (1 # 2))%Qc) by reflexivity.
  remember (q + Q2Qc (1 # 2))%Qc as w eqn:Ew. assert (W0 : (0 <= w)%Qc) by (subst w; qlra). assert (W1 : (w < qz 256)%Qc).
  { change 256 with (255 + 1). rewrite qz_add, qz_1. subst w. qlra. }
  assert (N : 0 <= Qnum w). { clear Ew. unfold Qcle, Qle in W0. change (Qnum (this 0%Qc)) with 0 in W0. change (QDen (this 0%Qc)) with 1 in W0. lia. }
  rewrite Z.quot_div_nonneg by lia.
  assert (F1 : (qz (Qnum w / Z.pos (Qden w)) <= w)%Qc).
  { unfold Qcle. rewrite this_qz. replace (Qnum w / Z.pos (Qden w)) with (Qfloor w) by (unfold Qfloor; now destruct (this w)). apply (Qfloor_le w). }
  assert (F2 : (w < qz (Qnum w / Z.pos (Qden w) + 1))%Qc).
  { unfold Qclt. rewrite this_qz. replace (Qnum w / Z.pos (Qden w)) with (Qfloor w) by (unfold Qfloor; now destruct (this w)). apply (Qlt_floor w). }
  assert (Z0 : 0 <= Qnum w / Z.pos (Qden w)) by (apply Z.div_pos; lia).
  remember (Qnum w / Z.pos (Qden w)) as z eqn:Ez. clear Ez.
  assert (z < 256). { apply (proj1 (qz_lt _ _)). qlra. }
  rewrite Z.mod_small by lia. rewrite qz_add, qz_1 in F2. subst w. split; qlra.
Qed.

(** ** Positions *)
Lemma count_prefix {A} (P : A -> bool) l :
  (forall i j a b, 0 <= i <= j -> Znth l i = Some a -> Znth l j = Some b -> P b = true -> P a = true) ->
  forall i a, Znth l i = Some a -> (P a = true <-> i < zlen (filter P l)).
Proof.
  induction l as [|x l IH]; intros H i a Ha; [apply Znth_In in Ha; destruct Ha|].
  assert (H' : forall i j a b, 0 <= i <= j -> Znth l i = Some a -> Znth l j = Some b -> P b = true -> P a = true).
  { intros i' j' a' b' B Hi Hj. apply (H (i' + 1) (j' + 1)); [lia| |]; rewrite Znth_cons by lia; [rewrite <- Hi|rewrite <- Hj]; f_equal; lia. }
  pose proof (Znth_Some_lt _ _ _ Ha) as Ba. cbn [filter]. destruct (P x) eqn:Ex.
  - rewrite zlen_cons. destruct (Z.eq_dec i 0) as [->|N].
    + rewrite Znth_0 in Ha. injection Ha as <-. pose proof (zlen_nonneg (filter P l)). split; intros; [lia|assumption].
    + rewrite Znth_cons in Ha by lia. rewrite (IH H' _ _ Ha). lia.
  - assert (E : filter P l = []).
    { destruct (filter P l) as [|y t] eqn:E; [reflexivity|]. assert (I : In y (filter P l)) by (rewrite E; now left). apply filter_In in I. destruct I as [I Py].
      apply In_Znth in I. destruct I as [k [Hk E']]. rewrite (H 0 (k + 1) x y) in Ex; [discriminate|lia|apply Znth_0| |assumption].
      rewrite Znth_cons by lia. rewrite <- E'. f_equal. lia. }
    rewrite E. cbn. split; [|lia]. intros Pa. rewrite (H 0 i x a) in Ex; [discriminate|lia|apply Znth_0|assumption|assumption].
Qed.
Lemma filter_le_len {A} (P : A -> bool) l : 0 <= zlen (filter P l) <= zlen l.
Proof. split; [apply zlen_nonneg|]. induction l as [|a l IH]; cbn [filter]; [lia|]. destruct (P a); rewrite !zlen_cons; lia. Qed.

Lemma nondecreasing_iff l : nondecreasing l = true <->
  forall i j a b, i <= j -> Znth l i = Some a -> Znth l j = Some b -> (a <= b)%Qc.
Proof.
  induction l as [|x l IH].
  - split; [|reflexivity]. intros _ i j a b _ H. apply Znth_In in H. destruct H.
  - destruct l as [|y t].
    + split; [|reflexivity]. intros _ i j a b _ Ha Hb. apply Znth_In in Ha, Hb. destruct Ha as [<-|[]], Hb as [<-|[]]. apply Qcle_refl.
    + cbn [nondecreasing]. rewrite andb_true_iff. cbn [nondecreasing] in IH. rewrite IH. rewrite Qcleb_le. split.
      * intros [L H] i j a b B Ha Hb. pose proof (Znth_Some_lt _ _ _ Ha). destruct (Z.eq_dec i 0) as [->|N].
        -- rewrite Znth_0 in Ha. injection Ha as <-. destruct (Z.eq_dec j 0) as [->|N]; [rewrite Znth_0 in Hb; injection Hb as <-; apply Qcle_refl|].
           rewrite Znth_cons in Hb by lia. apply Qcle_trans with y; [assumption|]. apply (H 0 (j - 1)); [lia|apply Znth_0|assumption].
        -- rewrite Znth_cons in Ha by lia. rewrite Znth_cons in Hb by lia. apply (H (i - 1) (j - 1)); [lia|assumption|assumption].
      * intros H. split; [apply (H 0 1); [lia|reflexivity|reflexivity]|]. intros i j a b B Ha Hb. pose proof (Znth_Some_lt _ _ _ Ha). pose proof (Znth_Some_lt _ _ _ Hb).
        apply (H (i + 1) (j + 1)); [lia| |]; rewrite Znth_cons by lia; [rewrite <- Ha|rewrite <- Hb]; f_equal; lia.
Qed.

(** ** Differences *)
Lemma diff_ratios_len S : zlen (diff_ratios S) = zlen S.
Proof.
  induction S as [|[s c] S IH]; [reflexivity|]. destruct S as [|[s' c'] t]; [reflexivity|]. cbn [diff_ratios] in *. rewrite zlen_cons, IH, !zlen_cons. reflexivity.
Qed.
Lemma diff_ratios_last S : S <> [] -> Znth (diff_ratios S) (zlen S - 1) = Some (T3 0%Qc 0%Qc 0%Qc).
Proof.
  induction S as [|[s c] S IH]; [easy|]. intros _. destruct S as [|[s' c'] t]; [reflexivity|]. rewrite zlen_cons. cbn [diff_ratios].
  pose proof (zlen_nonneg t). rewrite Znth_cons by (rewrite zlen_cons; lia). rewrite <- (IH ltac:(discriminate)). f_equal. lia.
Qed.
Lemma diff_ratios_at S k s c s' c' : Znth S k = Some (s, c) -> Znth S (k + 1) = Some (s', c') ->
  Znth (diff_ratios S) k = Some (t3map2 (fun a a' => ((a' - a) / (s' - s))%Qc) c c').
Proof.
  revert k. induction S as [|[s0 c0] S IH]; intros k H1 H2; [apply Znth_In in H1; destruct H1|].
  pose proof (Znth_Some_lt _ _ _ H1) as B1. pose proof (Znth_Some_lt _ _ _ H2) as B2. destruct S as [|[s1 c1] t]; [change (zlen [(s0, c0)]) with 1 in B2; lia|].
  cbn [diff_ratios]. destruct (Z.eq_dec k 0) as [->|N].
  - rewrite Znth_0 in *. injection H1 as <- <-. change (Znth ((s0, c0) :: (s1, c1) :: t) (0 + 1)) with (Some (s1, c1)) in H2. injection H2 as <- <-. reflexivity.
  - rewrite Znth_cons in H1 by lia. rewrite Znth_cons in H2 by lia. rewrite Znth_cons by lia. apply IH; [assumption|]. replace (k - 1 + 1) with (k + 1 - 1) by lia. assumption.
Qed.

(** ** One value *)
Definition color_row (S : list (Qc * t3 Qc)) (x : Qc) (i : Z) : res (t3 Z) :=
  do endpt <- py_get (S ++ firstn 1 S) (i - 1);
  do ratio <- py_get (diff_ratios S) (i - 1);
  Ok (t3map2 (fun c r => to_uint8 (c + r * (x - fst endpt) + Q2Qc (1 # 2))%Qc) (snd endpt) ratio).

Lemma uint8_3 c (f : t3 Qc -> Qc) : channel (f c) -> rounds (f c) (to_uint8 (f c + Q2Qc (1 # 2))%Qc).
Proof. apply to_uint8_ok. Qed.

Lemma flat_color (c0 : t3 Qc) (d : Qc) : valid_color c0 ->
  rounds3 c0 (t3map2 (fun c r => to_uint8 (c + r * d + Q2Qc (1 # 2))%Qc) c0 (T3 0%Qc 0%Qc 0%Qc)).
Proof.
  intros [V1 [V2 V3]]. unfold rounds3, t3map2; cbn [red green blue].
  assert (E : forall q, (q + 0 * d + Q2Qc (1 # 2))%Qc = (q + Q2Qc (1 # 2))%Qc) by (intros; ring). rewrite !E.
  split; [|split]; now apply to_uint8_ok.
Qed.

Lemma color_row_ends S x s0 c0 s1 c1 : Znth S 0 = Some (s0, c0) -> Znth S (zlen S - 1) = Some (s1, c1) -> valid_color c0 -> valid_color c1 ->
  (exists c, color_row S x 0 = Ok c /\ rounds3 c0 c) /\ (exists c, color_row S x (zlen S) = Ok c /\ rounds3 c1 c).
Proof.
  intros H0 H1 V0 V1. assert (NE : S <> []) by (intros ->; discriminate). pose proof (Znth_Some_lt _ _ _ H0) as B. unfold color_row. split.
  - assert (E : py_get (S ++ firstn 1 S) (0 - 1) = Ok (s0, c0)).
    { destruct S as [|p t]; [easy|]. rewrite Znth_0 in H0. injection H0 as ->. unfold py_get. cbn [firstn]. change (0 - 1 <? 0) with true. cbn iota.
      rewrite Znth_app2 by (rewrite zlen_app, !zlen_cons; change (zlen (@nil (Qc * t3 Qc))) with 0; pose proof (zlen_nonneg t); lia). rewrite zlen_app. replace (0 - 1 + (zlen ((s0, c0) :: t) + zlen [(s0, c0)]) - zlen ((s0, c0) :: t)) with 0 by (rewrite !zlen_cons; change (zlen (@nil (Qc * t3 Qc))) with 0; lia). reflexivity. }
    rewrite E. cbn [bind]. unfold py_get. change (0 - 1 <? 0) with true. cbn iota. rewrite diff_ratios_len. replace (0 - 1 + zlen S) with (zlen S - 1) by lia. rewrite diff_ratios_last by assumption. cbn [bind fst snd].
    eexists. split; [reflexivity|]. now apply flat_color.
  - rewrite (py_get_in (S ++ firstn 1 S) (zlen S - 1) (s1, c1)) by (lia || (rewrite Znth_app1 by lia; assumption)). cbn [bind].
    rewrite (py_get_in (diff_ratios S) (zlen S - 1) (T3 0%Qc 0%Qc 0%Qc)) by (lia || now apply diff_ratios_last). cbn [bind fst snd].
    eexists. split; [reflexivity|]. now apply flat_color.
Qed.

Lemma between_channel a b t : channel a -> channel b -> (0 <= t)%Qc -> (t <= 1)%Qc -> channel (a + t * (b - a))%Qc.
Proof.
  intros [A1 A2] [B1 B2] T0 T1.
  assert (E : (a + t * (b - a))%Qc = ((1 - t) * a + t * b)%Qc) by ring. rewrite E.
  assert (U : (0 <= 1 - t)%Qc) by qlra. split.
  - pose proof (Qcmult_le_compat_r 0 a (1 - t) A1 U). pose proof (Qcmult_le_compat_r 0 b t B1 T0). qnra.
  - pose proof (Qcmult_le_compat_r a (qz 255) (1 - t) A2 U). pose proof (Qcmult_le_compat_r b (qz 255) t B2 T0). qnra.
Qed.

Lemma color_row_mid S x k s c0 s' c1 : Znth S k = Some (s, c0) -> Znth S (k + 1) = Some (s', c1) -> valid_color c0 -> valid_color c1 ->
  (0 <= (x - s) / (s' - s))%Qc -> ((x - s) / (s' - s) <= 1)%Qc ->
  exists c, color_row S x (k + 1) = Ok c /\ rounds3 (between ((x - s) / (s' - s)) c0 c1) c.
Proof.
  intros H0 H1 [V1 [V2 V3]] [W1 [W2 W3]] T0 T1. pose proof (Znth_Some_lt _ _ _ H0) as B. unfold color_row. replace (k + 1 - 1) with k by lia.
  rewrite (py_get_in (S ++ firstn 1 S) k (s, c0)) by (lia || (rewrite Znth_app1 by lia; assumption)). cbn [bind].
  rewrite (py_get_in (diff_ratios S) k _ (proj1 B) (diff_ratios_at S k s c0 s' c1 H0 H1)). cbn [bind fst snd]. eexists. split; [reflexivity|].
  unfold rounds3, between, t3map2; cbn [red green blue].
  assert (E : forall a b, (a + (b - a) / (s' - s) * (x - s) + Q2Qc (1 # 2))%Qc = (a + (x - s) / (s' - s) * (b - a) + Q2Qc (1 # 2))%Qc) by (intros; unfold Qcdiv; ring). rewrite !E.
  split; [|split]; apply to_uint8_ok; now apply between_channel.
Qed.
