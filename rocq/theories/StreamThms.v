(** C99: what older and newer values change in the transform of a time series. *)
From Verif Require Import Np NpFacts Fl FlFacts TSModel TSSpec TSProofs TSThms.
Open Scope Z_scope.

Lemma Znth_skip {A} (l : list A) k i : 0 <= k -> 0 <= i -> Znth (skipn (Z.to_nat k) l) i = Znth l (k + i).
Proof.
  intros Hk Hi. unfold Znth. destruct (Z.ltb_spec i 0); [lia|]. destruct (Z.ltb_spec (k + i) 0); [lia|]. rewrite Z2Nat.inj_add by lia.
  generalize (Z.to_nat k), (Z.to_nat i). intros m n. revert l. induction m as [|m IH]; intro l; [reflexivity|]. destruct l; [destruct n; reflexivity|]. apply IH.
Qed.
Lemma suffix_of {A} (W V : list A) k : 0 <= k -> zlen W = k + zlen V -> (forall i, 0 <= i < zlen V -> Znth W (k + i) = Znth V i) ->
  exists W0, W = W0 ++ V /\ zlen W0 = k.
Proof.
  intros Hk L H. exists (firstn (Z.to_nat k) W). assert (LF : zlen (firstn (Z.to_nat k) W) = k) by (pose proof (zlen_nonneg V); unfold zlen in *; rewrite firstn_length; lia).
  split; [|assumption]. rewrite <- (firstn_skipn (Z.to_nat k) W) at 1. f_equal.
  assert (LS : zlen (skipn (Z.to_nat k) W) = zlen V) by (unfold zlen in *; rewrite skipn_length; lia).
  apply Znth_ext; [assumption|]. intros i Bi. rewrite Znth_skip by lia. apply H. lia.
Qed.
Lemma prefix_of {A} (W V : list A) : zlen V <= zlen W -> (forall i, 0 <= i < zlen V -> Znth W i = Znth V i) ->
  exists W1, W = V ++ W1 /\ zlen W1 = zlen W - zlen V.
Proof.
  intros L H. exists (skipn (Z.to_nat (zlen V)) W). pose proof (zlen_nonneg V). assert (LS : zlen (skipn (Z.to_nat (zlen V)) W) = zlen W - zlen V) by (unfold zlen in *; rewrite skipn_length; lia).
  split; [|assumption]. apply Znth_ext; [rewrite zlen_app; lia|]. intros i Bi. destruct (Z_lt_dec i (zlen V)) as [B|B].
  - rewrite Znth_app1 by lia. apply H. lia.
  - rewrite Znth_app2, Znth_skip by lia. f_equal. lia.
Qed.
Lemma Znth_right {A} (P X : list A) i : 0 <= i -> Znth (P ++ X) (zlen P + i) = Znth X i.
Proof. intro Hi. rewrite Znth_app2 by lia. f_equal. lia. Qed.
Lemma run_unique {A} (X X' : list A) a a' size w w' : is_run X a size w -> is_run X' a' size w' ->
  (forall j, 0 <= j < size -> Znth X (a + j) = Znth X' (a' + j)) -> w = w'.
Proof.
  intros [L H] [L' H'] E. apply Znth_ext; [congruence|]. intros j Bj. rewrite L in Bj. destruct (H j Bj) as [-> _]. destruct (H' j Bj) as [-> _]. auto.
Qed.
Lemma delay_unique {A} (X X' : list A) a a' t d w w' : is_delay_vector X a t d w -> is_delay_vector X' a' t d w' ->
  (forall j, 0 <= j < d -> Znth X (a + j * t) = Znth X' (a' + j * t)) -> w = w'.
Proof.
  intros [L H] [L' H'] E. apply Znth_ext; [congruence|]. intros j Bj. rewrite L in Bj. destruct (H j Bj) as [-> _]. destruct (H' j Bj) as [-> _]. auto.
Qed.
(** m + b and b divided by s: so many more, at the same distance from the end *)
Lemma from_end b m s : 0 <= b -> 0 <= m -> 1 <= s ->
  b / s <= (m + b) / s /\ (m + b) mod s + ((m + b) / s - b / s) * s = m + b mod s.
Proof.
  intros Hb Hm Hs. split; [apply Z.div_le_mono; lia|]. pose proof (Z.div_mod (m + b) s ltac:(lia)). pose proof (Z.div_mod b s ltac:(lia)). nia.
Qed.

(** SlidingWindow: windows of newer values do not depend on older ones. *)
Theorem sliding_window_older_values : forall (A : Type) (P X : list A) size stride V, 1 <= size -> 1 <= stride ->
  sw_transform size stride X = Ok V ->
  exists W0, sw_transform size stride (P ++ X) = Ok (W0 ++ V) /\ zlen W0 = (zlen P + zlen X - size) / stride - (zlen X - size) / stride.
Proof.
  intros A P X size stride V Hs Ht E. pose proof (zlen_nonneg P) as HP.
  destruct (sliding_window_transform_spec A X size stride Hs Ht) as [S1 S2]. destruct (Z_lt_dec (zlen X) size) as [B|B]; [now rewrite S1 in E by lia|].
  destruct (S2 ltac:(lia)) as (V' & E' & LV & HV). rewrite E in E'. injection E' as <-.
  destruct (sliding_window_transform_spec A (P ++ X) size stride Hs Ht) as [_ T2]. rewrite zlen_app in T2. destruct (T2 ltac:(lia)) as (W & EW & LW & HW).
  replace (zlen P + zlen X - size) with (zlen P + (zlen X - size)) in * by lia.
  destruct (from_end (zlen X - size) (zlen P) stride ltac:(lia) ltac:(lia) Ht) as [D1 D2].
  destruct (suffix_of W V ((zlen P + (zlen X - size)) / stride - (zlen X - size) / stride)) as (W0 & -> & L0); [lia|lia| |].
  - intros i Bi. set (k := (zlen P + (zlen X - size)) / stride - (zlen X - size) / stride) in *. destruct (HV i Bi) as (v & Ev & Rv & _). destruct (HW (k + i) ltac:(lia)) as (w & Ew & Rw & _).
    rewrite Ev, Ew. f_equal. apply (run_unique _ _ _ _ _ _ _ Rw Rv). intros j Bj. pose proof (Z.mod_pos_bound (zlen X - size) stride ltac:(lia)).
    replace ((zlen P + (zlen X - size)) mod stride + (k + i) * stride + j) with (zlen P + ((zlen X - size) mod stride + i * stride + j)) by lia. apply Znth_right. nia.
  - exists W0. split; [congruence|assumption].
Qed.
(** Newer values keep the windows if their number is a multiple of stride - and, by the second theorem,
    only then. *)
Theorem sliding_window_newer_values : forall (A : Type) (X Z' : list A) size stride V, 1 <= size -> 1 <= stride ->
  sw_transform size stride X = Ok V -> (stride | zlen Z') ->
  exists W1, sw_transform size stride (X ++ Z') = Ok (V ++ W1) /\ zlen W1 = zlen Z' / stride.
Proof.
  intros A X Z' size stride V Hs Ht E [q Q]. pose proof (zlen_nonneg Z') as HP.
  destruct (sliding_window_transform_spec A X size stride Hs Ht) as [S1 S2]. destruct (Z_lt_dec (zlen X) size) as [B|B]; [now rewrite S1 in E by lia|].
  destruct (S2 ltac:(lia)) as (V' & E' & LV & HV). rewrite E in E'. injection E' as <-.
  destruct (sliding_window_transform_spec A (X ++ Z') size stride Hs Ht) as [_ T2]. rewrite zlen_app in T2. destruct (T2 ltac:(lia)) as (W & EW & LW & HW).
  replace (zlen X + zlen Z' - size) with (zlen X - size + q * stride) in * by lia. rewrite Z.div_add in LW by lia. rewrite Z.mod_add in HW by lia.
  assert (0 <= q) by nia. assert (zlen Z' / stride = q) as -> by (rewrite Q; apply Z.div_mul; lia).
  destruct (prefix_of W V) as (W1 & -> & L1); [lia| |].
  - intros i Bi. destruct (HV i Bi) as (v & Ev & Rv & _). destruct (HW i ltac:(lia)) as (w & Ew & Rw & _).
    rewrite Ev, Ew. f_equal. apply (run_unique _ _ _ _ _ _ _ Rw Rv). intros j Bj. apply Znth_app1.
    assert (Znth v j <> None) by (apply Rv; assumption). destruct Rv as [_ Rv]. destruct (Rv j Bj) as [Q1 Q2]. rewrite Q1 in Q2.
    destruct (Znth X _) eqn:Z0 in Q2; [|easy]. apply Znth_Some_lt in Z0. lia.
  - exists W1. split; [congruence|lia].
Qed.
Theorem sliding_window_newer_values_exact : forall size stride n m V, 1 <= size -> 1 <= stride -> 0 <= m ->
  sw_transform size stride (arange n) = Ok V -> size <= n ->
  ((exists W1, sw_transform size stride (arange (n + m)) = Ok (V ++ W1)) <-> (stride | m)).
Proof.
  intros size stride n m V Hs Ht Hm E Hn. split.
  - intros [W1 EW]. destruct (sliding_window_transform_spec Z (arange n) size stride Hs Ht) as [_ S2]. destruct (sliding_window_transform_spec Z (arange (n + m)) size stride Hs Ht) as [_ T2].
    rewrite zlen_arange in S2 by lia. rewrite zlen_arange in T2 by lia. destruct (S2 Hn) as (V' & E' & LV & HV). destruct (T2 ltac:(lia)) as (W' & EW' & LW & HW).
    rewrite E in E'. injection E' as <-. rewrite EW in EW'. injection EW' as <-. pose proof (Z.div_pos (n - size) stride ltac:(lia) ltac:(lia)).
    destruct (HV 0 ltac:(lia)) as (v & Ev & Rv & _). destruct (HW 0 ltac:(rewrite zlen_app; pose proof (zlen_nonneg W1); lia)) as (w & Ew & Rw & _).
    rewrite Znth_app1, Ev in Ew by lia. injection Ew as <-. destruct Rv as [_ Rv], Rw as [_ Rw]. destruct (Rv 0 ltac:(lia)) as [A1 A2]. destruct (Rw 0 ltac:(lia)) as [B1 B2].
    assert (O1 : Znth v 0 = Some ((n - size) mod stride + 0 * stride + 0)).
    { rewrite A1. apply Znth_arange. pose proof (Z.mod_pos_bound (n - size) stride ltac:(lia)). pose proof (Z.mod_le (n - size) stride ltac:(lia) ltac:(lia)). lia. }
    assert (O2 : Znth v 0 = Some ((n + m - size) mod stride + 0 * stride + 0)).
    { rewrite B1. apply Znth_arange. pose proof (Z.mod_pos_bound (n + m - size) stride ltac:(lia)). pose proof (Z.mod_le (n + m - size) stride ltac:(lia) ltac:(lia)). lia. }
    rewrite O1 in O2. injection O2 as O2. pose proof (Z.div_mod (n - size) stride ltac:(lia)). pose proof (Z.div_mod (n + m - size) stride ltac:(lia)).
    exists ((n + m - size) / stride - (n - size) / stride). nia.
  - intros D. assert (A : arange (n + m) = arange n ++ map (fun i => n + i) (arange m)).
    { apply Znth_ext; [rewrite zlen_app, zlen_map, !zlen_arange; lia|]. intros i Bi. rewrite zlen_arange in Bi by lia. rewrite Znth_arange by lia.
      destruct (Z_lt_dec i n); [rewrite Znth_app1, Znth_arange by (rewrite ?zlen_arange; lia); reflexivity|]. rewrite Znth_app2, Znth_map, zlen_arange, Znth_arange by (rewrite ?zlen_arange; lia). cbn. f_equal. lia. }
    destruct (sliding_window_newer_values Z (arange n) (map (fun i => n + i) (arange m)) size stride V Hs Ht E) as (W1 & EW & _); [rewrite zlen_map, zlen_arange by lia; assumption|].
    exists W1. now rewrite A.
Qed.
(** The labels of the windows likewise. *)
Theorem sliding_window_older_labels : forall (A : Type) (P y : list A) size stride, 2 <= size -> 1 <= stride -> size <= zlen y ->
  exists R0, sw_resample size stride (P ++ y) = R0 ++ sw_resample size stride y.
Proof.
  intros A P y size stride Hs Ht Hy. pose proof (zlen_nonneg P) as HP.
  assert (LY : size <= zlen (P ++ y)) by (rewrite zlen_app; lia).
  pose proof (sw_resample_len y size stride Hs Ht Hy) as L1. pose proof (sw_resample_len (P ++ y) size stride Hs Ht LY) as L2.
  destruct (from_end (zlen y - size) (zlen P) stride ltac:(lia) ltac:(lia) Ht) as [D1 D2].
  assert (EL : zlen (P ++ y) - size = zlen P + (zlen y - size)) by (rewrite zlen_app; lia).
  destruct (suffix_of (sw_resample size stride (P ++ y)) (sw_resample size stride y) ((zlen P + (zlen y - size)) / stride - (zlen y - size) / stride)) as (R0 & -> & _); [lia|rewrite L1, L2, EL; lia| |eauto].
  intros i Bi. rewrite !sw_resample_Znth by (rewrite ?EL; lia). rewrite EL, zlen_app.
  pose proof (Z.div_mod (zlen y - size) stride ltac:(lia)). pose proof (Z.mod_pos_bound (zlen y - size) stride ltac:(lia)).
  replace (zlen P + zlen y - 1 - ((zlen P + (zlen y - size)) / stride - ((zlen P + (zlen y - size)) / stride - (zlen y - size) / stride + i)) * stride)
    with (zlen P + (zlen y - 1 - ((zlen y - size) / stride - i) * stride)) by lia. apply Znth_right. nia.
Qed.

(** SingleTakensEmbedding, and TakensEmbedding with ensure_last_value: the same. *)
Theorem takens_older_values : forall (A : Type) (P X : list A) t d s V, 1 <= t -> 1 <= d -> 1 <= s ->
  tde t d s true X = Ok V -> exists W0, tde t d s true (P ++ X) = Ok (W0 ++ V).
Proof.
  intros A P X t d s V Ht Hd Hs E. pose proof (zlen_nonneg P) as HP.
  destruct (takens_embedding_spec A X t d s true Ht Hd Hs) as [S1 S2]. destruct (Z_lt_dec (zlen X) (t * (d - 1) + 1)) as [B|B]; [now rewrite S1 in E by lia|].
  destruct (S2 ltac:(lia)) as (V' & E' & LV & HV). rewrite E in E'. injection E' as <-.
  destruct (takens_embedding_spec A (P ++ X) t d s true Ht Hd Hs) as [_ T2]. rewrite zlen_app in T2. destruct (T2 ltac:(lia)) as (W & EW & LW & HW).
  set (b := zlen X - t * (d - 1) - 1) in *. replace (zlen P + zlen X - t * (d - 1) - 1) with (zlen P + b) in * by lia.
  destruct (from_end b (zlen P) s ltac:(lia) ltac:(lia) Hs) as [D1 D2].
  destruct (suffix_of W V ((zlen P + b) / s - b / s)) as (W0 & -> & L0); [lia|lia| |].
  - intros i Bi. set (k := (zlen P + b) / s - b / s) in *. destruct (HV i Bi) as (v & Ev & Rv & _). destruct (HW (k + i) ltac:(lia)) as (w & Ew & Rw & _).
    rewrite Ev, Ew. f_equal. apply (delay_unique _ _ _ _ _ _ _ _ Rw Rv). intros j Bj. pose proof (Z.mod_pos_bound b s ltac:(lia)).
    replace ((zlen P + b) mod s + (k + i) * s + j * t) with (zlen P + (b mod s + i * s + j * t)) by lia. apply Znth_right. nia.
  - exists W0. congruence.
Qed.
(** TakensEmbedding without ensure_last_value: newer values never change the vectors of older ones. *)
Theorem takens_newer_values : forall (A : Type) (X Z' : list A) t d s V, 1 <= t -> 1 <= d -> 1 <= s ->
  tde t d s false X = Ok V -> exists W1, tde t d s false (X ++ Z') = Ok (V ++ W1).
Proof.
  intros A X Z' t d s V Ht Hd Hs E. pose proof (zlen_nonneg Z') as HP.
  destruct (takens_embedding_spec A X t d s false Ht Hd Hs) as [S1 S2]. destruct (Z_lt_dec (zlen X) (t * (d - 1) + 1)) as [B|B]; [now rewrite S1 in E by lia|].
  destruct (S2 ltac:(lia)) as (V' & E' & LV & HV). rewrite E in E'. injection E' as <-.
  destruct (takens_embedding_spec A (X ++ Z') t d s false Ht Hd Hs) as [_ T2]. rewrite zlen_app in T2. destruct (T2 ltac:(lia)) as (W & EW & LW & HW).
  destruct (prefix_of W V) as (W1 & -> & L1).
  - rewrite LV, LW. assert ((zlen X - t * (d - 1) - 1) / s <= (zlen X + zlen Z' - t * (d - 1) - 1) / s) by (apply Z.div_le_mono; lia). lia.
  - intros i Bi. assert (zlen V <= zlen W). { rewrite LV, LW. assert ((zlen X - t * (d - 1) - 1) / s <= (zlen X + zlen Z' - t * (d - 1) - 1) / s) by (apply Z.div_le_mono; lia). lia. }
    destruct (HV i Bi) as (v & Ev & Rv & _). destruct (HW i ltac:(lia)) as (w & Ew & Rw & _).
    rewrite Ev, Ew. f_equal. apply (delay_unique _ _ _ _ _ _ _ _ Rw Rv). intros j Bj. apply Znth_app1.
    destruct Rv as [_ Rv]. destruct (Rv j Bj) as [Q1 Q2]. rewrite Q1 in Q2. destruct (Znth X _) eqn:Z0 in Q2; [|easy]. apply Znth_Some_lt in Z0. lia.
  - exists W1. congruence.
Qed.
(** Resampler: newer values never change the rows kept of older ones. *)
Theorem resampler_newer_values : forall (A : Type) (X Z' : list A) period, 1 <= period ->
  exists R1, resampler_transform period (X ++ Z') = resampler_transform period X ++ R1.
Proof.
  intros A X Z' p Hp. pose proof (zlen_nonneg Z') as HP.
  destruct (resampler_alignment A A X X p Hp eq_refl) as (_ & L1 & H1). destruct (resampler_alignment A A (X ++ Z') (X ++ Z') p Hp eq_refl) as (_ & L2 & H2).
  rewrite zlen_app in L2. assert (LE : (zlen X + p - 1) / p <= (zlen X + zlen Z' + p - 1) / p) by (apply Z.div_le_mono; lia).
  destruct (prefix_of (resampler_transform p (X ++ Z')) (resampler_transform p X)) as (R1 & -> & _); [lia| |eauto].
  intros i Bi. destruct (H1 i Bi) as (B & -> & _). destruct (H2 i ltac:(lia)) as (_ & -> & _). apply Znth_app1. lia.
Qed.
(** Stationarizer: neither older nor newer values change the differences of the others. *)
Lemma diff_app (P X : list fl) : X <> [] -> exists D, diff1 (P ++ X) = D ++ diff1 X /\ zlen D = zlen P.
Proof.
  intro N. induction P as [|a P (D & E & L)]; [exists []; split; reflexivity|]. destruct (P ++ X) as [|b l] eqn:EP; [destruct P; [now subst|discriminate]|].
  exists (fsub b a :: D). cbn [app]. rewrite EP. split; [|rewrite !zlen_cons; lia]. change (diff1 (a :: b :: l)) with (fsub b a :: diff1 (b :: l)). rewrite E. reflexivity.
Qed.
Theorem stationarizer_older_values : forall flog (P X : list fl), X <> [] ->
  (exists D, stationarize_log flog (P ++ X) = D ++ stationarize_log flog X) /\
  (exists D, stationarize_return (P ++ X) = D ++ stationarize_return X).
Proof.
  intros flog P X N. split.
  - unfold stationarize_log. rewrite map_app. destruct (diff_app (map flog P) (map flog X)) as (D & E & _); [destruct X; easy|]. eauto.
  - assert (LX : 1 <= zlen X) by (destruct X as [|? X]; [easy|]; rewrite zlen_cons; pose proof (zlen_nonneg X); lia). pose proof (zlen_nonneg P).
    assert (LP : 1 <= zlen (P ++ X)) by (rewrite zlen_app; lia).
    destruct (stationarizer_alignment fl flog X X LX eq_refl) as (L1 & _ & _ & H1). destruct (stationarizer_alignment fl flog (P ++ X) (P ++ X) LP eq_refl) as (L2 & _ & _ & H2).
    rewrite zlen_app in L2. destruct (suffix_of (stationarize_return (P ++ X)) (stationarize_return X) (zlen P)) as (D & -> & _); [lia|lia| |eauto].
    intros i Bi. destruct (Znth_ex X i ltac:(lia)) as [a Ea]. destruct (Znth_ex X (i + 1) ltac:(lia)) as [b Eb].
    destruct (H1 i a b Ea Eb) as (-> & _). apply (H2 (zlen P + i) a b); [rewrite Znth_right by lia; assumption|]. rewrite <- Z.add_assoc, Znth_right by lia. assumption.
Qed.
Example stream_example :
  sw_transform 3 2 [13; 14; 15] = Ok [[13; 14; 15]] /\ sw_transform 3 2 [10; 11; 12; 13; 14; 15] = Ok ([[11; 12; 13]] ++ [[13; 14; 15]]) /\
  sw_transform 3 2 [10; 11; 12; 13] = Ok [[11; 12; 13]] /\ sw_transform 3 2 [10; 11; 12; 13; 14] = Ok [[10; 11; 12]; [12; 13; 14]] /\
  tde 1 2 1 true [1; 2; 3] = Ok [[1; 2]; [2; 3]] /\ tde 1 2 1 false [1; 2; 3; 4] = Ok ([[1; 2]; [2; 3]] ++ [[3; 4]]).
Proof. repeat split; vm_compute; reflexivity. Qed.
Print Assumptions sliding_window_older_values.
Print Assumptions sliding_window_newer_values_exact.
Print Assumptions takens_newer_values.
Print Assumptions stationarizer_older_values.
