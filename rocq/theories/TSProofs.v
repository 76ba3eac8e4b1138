(** Lemmas behind TSThms. *)
From Verif Require Import Np NpFacts Fl FlFacts TSModel TSSpec.
Open Scope Z_scope.
Ltac Zify.zify_post_hook ::= Z.div_mod_to_equations.

Lemma flip_len {A} (l : list A) : zlen (flip l) = zlen l.
Proof.
  unfold flip. destruct (py_slice_spec l None None (-1) ltac:(lia)) as [_ [H _]].
  rewrite H. cbn. pose proof (zlen_nonneg l).
  unfold slice_count. cbn. destruct (Z.ltb_spec (-1) (zlen l - 1)); [rewrite Z.div_1_r|]; lia.
Qed.
Lemma flip_Znth {A} (l : list A) i : 0 <= i < zlen l -> Znth (flip l) i = Znth l (zlen l - 1 - i).
Proof.
  intros Hi. unfold flip. destruct (py_slice_spec l None None (-1) ltac:(lia)) as [_ [_ H]].
  cbn in H. rewrite H.
  - f_equal; lia.
  - unfold slice_count. cbn. destruct (Z.ltb_spec (-1) (zlen l - 1)); [rewrite Z.div_1_r|]; lia.
Qed.

Lemma n_windows_pos n size stride :
  1 <= stride -> ((n - size) / stride + 1 <= 0 <-> n < size).
Proof. intros H. nia. Qed.

Lemma mapM_gather_tab {A} (X : list A) (nw : Z) (len : Z -> Z) (f : Z -> Z -> Z) :
  0 <= nw -> (forall w, 0 <= w < nw -> 0 <= len w) ->
  (forall w j, 0 <= w < nw -> 0 <= j < len w -> 0 <= f w j < zlen X) ->
  exists W, mapM (gather X) (tabZ nw (fun w => tabZ (len w) (f w))) = Ok W /\ zlen W = nw /\
    forall i, 0 <= i < nw -> exists w, Znth W i = Some w /\ zlen w = len i /\
      forall j, 0 <= j < len i -> Znth w j = Znth X (f i j).
Proof.
  intros Hnw Hlen Hf.
  assert (G : forall ws, (forall w, In w ws -> 0 <= w < nw) ->
     exists W, mapM (fun w => gather X (tabZ (len w) (f w))) ws = Ok W /\
       Forall2 (fun w r => zlen r = len w /\ forall j, 0 <= j < len w -> Znth r j = Znth X (f w j)) ws W).
  { induction ws as [|w ws IH]; intros Hw.
    - exists []. split; [reflexivity|constructor].
    - destruct (gather_tabZ X (len w) (f w)) as [r [Hr [Hl Hj]]].
      { intros j Hj. apply Hf; auto. apply Hw; simpl; auto. }
      destruct IH as [W [HW HF]]. { intros; apply Hw; simpl; auto. }
      exists (r :: W). simpl. rewrite Hr. simpl. rewrite HW. simpl. split; [reflexivity|].
      constructor; auto. split; auto. rewrite Hl.
      specialize (Hlen w (Hw w (or_introl eq_refl))). lia. }
  destruct (G (arange nw)) as [W [HW HF]].
  { intros w Hw. now apply In_arange in Hw. }
  exists W. rewrite tabZ_arange, mapM_map. split; [exact HW|].
  assert (HL : zlen W = nw).
  { unfold zlen. apply Forall2_length in HF. rewrite <- HF.
    fold (zlen (arange nw)). apply zlen_arange; lia. }
  split; [exact HL|]. intros i Hi.
  destruct (Znth_ex W i ltac:(lia)) as [w Hw]. exists w. split; [exact Hw|].
  assert (Ha : Znth (arange nw) i = Some i) by (apply Znth_arange; lia).
  clear - HF Hw Ha Hi.
  unfold Znth in *. destruct (i <? 0); [discriminate|].
  revert Hw Ha. generalize (Z.to_nat i). induction HF as [|a r l W Har _ IH]; intros [|k] Hw Ha; simpl in *; try discriminate.
  - injection Hw as <-. injection Ha as ->. exact Har.
  - eapply IH; eauto.
Qed.

Lemma sw_transform_ok {A} (X : list A) size stride :
  1 <= size -> 1 <= stride -> size <= zlen X ->
  exists W, sw_transform size stride X = Ok W /\
    zlen W = (zlen X - size) / stride + 1 /\
    forall i, 0 <= i < zlen W -> exists w, Znth W i = Some w /\ zlen w = size /\
      forall j, 0 <= j < size ->
        Znth w j = Znth X (zlen X - size - (zlen W - 1 - i) * stride + j).
Proof.
  intros Hs Hst Hn. unfold sw_transform, window_indices.
  assert (Hq : 0 <= (zlen X - size) / stride) by (apply Z.div_pos; lia).
  destruct (Z.leb_spec ((zlen X - size) / stride + 1) 0); [lia|]. simpl.
  set (nw := (zlen X - size) / stride + 1) in *.
  set (off := (zlen X - size) mod stride).
  assert (E : zlen X - size = stride * (nw - 1) + off).
  { unfold nw, off. replace ((zlen X - size) / stride + 1 - 1) with ((zlen X - size) / stride) by lia.
    apply Z.div_mod; lia. }
  assert (Ho : 0 <= off < stride) by (apply Z.mod_pos_bound; lia).
  destruct (mapM_gather_tab X nw (fun _ => size) (fun w j => j + (w * stride + off))) as [W [HW [HL H2]]].
  - lia.
  - intros; lia.
  - intros w j Hw Hj. simpl. nia.
  - exists W. split; [exact HW|]. split; [exact HL|]. intros i Hi.
    destruct (H2 i ltac:(lia)) as [w [Hw1 [Hw2 Hw3]]]. exists w. split; [assumption|]. split; [assumption|].
    intros j Hj. rewrite Hw3 by lia. f_equal. rewrite HL. nia.
Qed.

Lemma sw_transform_err {A} (X : list A) size stride :
  1 <= stride -> zlen X < size -> sw_transform size stride X = Err ValueError.
Proof.
  intros Hst Hn. unfold sw_transform, window_indices.
  destruct (Z.leb_spec ((zlen X - size) / stride + 1) 0); [reflexivity|]. exfalso. nia.
Qed.

Lemma sw_resample_len {A} (y : list A) size stride :
  2 <= size -> 1 <= stride -> size <= zlen y ->
  zlen (sw_resample size stride y) = (zlen y - size) / stride + 1.
Proof.
  intros Hs Hst Hn. unfold sw_resample. rewrite flip_len.
  destruct (py_slice_spec y None (Some (size - 2)) (- stride) ltac:(lia)) as [_ [H _]].
  rewrite H. unfold slice_start, slice_stop, clip_index, slice_count.
  destruct (Z.ltb_spec (- stride) 0); [|lia].
  destruct (Z.ltb_spec (size - 2) 0); [lia|].
  destruct (Z.ltb_spec (Z.min (size - 2) (zlen y - 1)) (zlen y - 1)); [|lia].
  rewrite Z.min_l by lia. rewrite Z.opp_involutive. do 2 f_equal. lia.
Qed.

Lemma sw_resample_Znth {A} (y : list A) size stride i :
  2 <= size -> 1 <= stride -> size <= zlen y ->
  0 <= i < (zlen y - size) / stride + 1 ->
  Znth (sw_resample size stride y) i =
  Znth y (zlen y - 1 - ((zlen y - size) / stride - i) * stride).
Proof.
  intros Hs Hst Hn Hi. pose proof (sw_resample_len y size stride Hs Hst Hn) as HL.
  unfold sw_resample in *. rewrite flip_len in HL. rewrite flip_Znth by lia. rewrite HL.
  destruct (py_slice_spec y None (Some (size - 2)) (- stride) ltac:(lia)) as [_ [H H']].
  rewrite H'.
  - f_equal. unfold slice_start. destruct (Z.ltb_spec (- stride) 0); [|lia]. lia.
  - rewrite <- H, HL. lia.
Qed.

Lemma Znth_last {A} (l : list A) : 1 <= zlen l -> exists x, Znth l (zlen l - 1) = Some x.
Proof. intros. apply Znth_ex. lia. Qed.

(** *** Takens *)
Lemma prange_tab t d : 1 <= t -> 1 <= d -> prange 0 (t * d) t = tabZ d (fun j => j * t).
Proof.
  intros Ht Hd. unfold prange.
  assert (E : slice_count t 0 (t * d) = d).
  { unfold slice_count. destruct (Z.ltb_spec t 0); [lia|].
    destruct (Z.ltb_spec 0 (t * d)); [|nia].
    replace (t * d - 0 - 1) with ((d - 1) * t + (t - 1)) by lia.
    rewrite Z.div_add_l by lia. rewrite Z.div_small by lia. lia. }
  rewrite E. apply tabZ_ext. intros; lia.
Qed.

Lemma tde_ok {A} (X : list A) t d s elv :
  1 <= t -> 1 <= d -> 1 <= s -> t * (d - 1) + 1 <= zlen X ->
  exists W, tde t d s elv X = Ok W /\
    zlen W = (zlen X - t * (d - 1) - 1) / s + 1 /\
    forall i, 0 <= i < zlen W -> exists w, Znth W i = Some w /\ zlen w = d /\
      forall j, 0 <= j < d ->
        Znth w j = if elv
          then Znth X (zlen X - 1 - (zlen W - 1 - i) * s - (d - 1 - j) * t)
          else Znth X (i * s + j * t).
Proof.
  intros Ht Hd Hs Hn. unfold tde, tde_indices.
  set (m := zlen X - t * (d - 1) - 1) in *.
  assert (Hq : 0 <= m / s) by (apply Z.div_pos; lia).
  destruct (Z.leb_spec (m / s + 1) 0); [lia|]. simpl.
  rewrite prange_tab by lia.
  set (nw := m / s + 1) in *. set (off := m mod s).
  assert (E : m = s * (nw - 1) + off).
  { unfold nw, off. replace (m / s + 1 - 1) with (m / s) by lia. apply Z.div_mod; lia. }
  assert (Ho : 0 <= off < s) by (apply Z.mod_pos_bound; lia).
  set (o := if elv then off else 0).
  assert (EI : (if elv then map (map (fun i => i + off)) (tabZ nw (fun p => map (fun b => b + p * s) (tabZ d (fun j => j * t))))
      else tabZ nw (fun p => map (fun b => b + p * s) (tabZ d (fun j => j * t))))
      = tabZ nw (fun p => tabZ d (fun j => j * t + p * s + o))).
  { unfold o. destruct elv.
    - rewrite tabZ_map. apply tabZ_ext. intros p Hp. rewrite !tabZ_map. reflexivity.
    - apply tabZ_ext. intros p Hp. rewrite tabZ_map. apply tabZ_ext. intros; lia. }
  rewrite EI. clear EI.
  destruct (mapM_gather_tab X nw (fun _ => d) (fun p j => j * t + p * s + o)) as [W [HW [HL H2]]].
  - lia.
  - intros; lia.
  - intros w j Hw Hj. simpl. assert (0 <= o <= off) by (unfold o; destruct elv; lia).
    assert (j * t <= (d - 1) * t) by nia. assert (w * s <= (nw - 1) * s) by nia.
    assert (0 <= j * t) by nia. assert (0 <= w * s) by nia. lia.
  - exists W. split; [exact HW|]. split; [exact HL|]. intros i Hi.
    destruct (H2 i ltac:(lia)) as [w [Hw1 [Hw2 Hw3]]]. exists w. split; [assumption|]. split; [assumption|].
    intros j Hj. rewrite Hw3 by lia. unfold o. destruct elv; f_equal; [rewrite HL; nia|lia].
Qed.

Lemma tde_err {A} (X : list A) t d s elv :
  1 <= s -> zlen X < t * (d - 1) + 1 -> tde t d s elv X = Err ValueError.
Proof.
  intros Hs Hn. unfold tde, tde_indices.
  destruct (Z.leb_spec ((zlen X - t * (d - 1) - 1) / s + 1) 0); [reflexivity|]. exfalso. nia.
Qed.

Lemma ste_resample_len {A} (y : list A) t d s :
  1 <= t -> 2 <= d -> 1 <= s -> t * (d - 1) + 1 <= zlen y ->
  zlen (ste_resample t d s y) = (zlen y - t * (d - 1) - 1) / s + 1.
Proof.
  intros Ht Hd Hs Hn. unfold ste_resample. rewrite flip_len.
  destruct (py_slice_spec y None (Some (t * (d - 1) - 1)) (- s) ltac:(lia)) as [_ [H _]].
  rewrite H. unfold slice_start, slice_stop, clip_index, slice_count.
  destruct (Z.ltb_spec (- s) 0); [|lia].
  destruct (Z.ltb_spec (t * (d - 1) - 1) 0); [nia|].
  destruct (Z.ltb_spec (Z.min (t * (d - 1) - 1) (zlen y - 1)) (zlen y - 1)); [|lia].
  rewrite Z.min_l by lia. rewrite Z.opp_involutive. do 2 f_equal. lia.
Qed.
Lemma ste_resample_Znth {A} (y : list A) t d s i :
  1 <= t -> 2 <= d -> 1 <= s -> t * (d - 1) + 1 <= zlen y ->
  0 <= i < (zlen y - t * (d - 1) - 1) / s + 1 ->
  Znth (ste_resample t d s y) i =
  Znth y (zlen y - 1 - ((zlen y - t * (d - 1) - 1) / s - i) * s).
Proof.
  intros Ht Hd Hs Hn Hi. pose proof (ste_resample_len y t d s Ht Hd Hs Hn) as HL.
  unfold ste_resample in *. rewrite flip_len in HL. rewrite flip_Znth by lia. rewrite HL.
  destruct (py_slice_spec y None (Some (t * (d - 1) - 1)) (- s) ltac:(lia)) as [_ [H H']].
  rewrite H'.
  - f_equal. unfold slice_start. destruct (Z.ltb_spec (- s) 0); [|lia]. lia.
  - rewrite <- H, HL. lia.
Qed.

Lemma slice_to_minus1_empty {A} (y : list A) s : 1 <= s -> flip (py_slice None (Some (-1)) (- s) y) = [].
Proof.
  intros Hs. assert (H0 : zlen (flip (py_slice None (Some (-1)) (- s) y)) = 0).
  { rewrite flip_len. destruct (py_slice_spec y None (Some (-1)) (- s) ltac:(lia)) as [_ [H _]].
    rewrite H. unfold slice_start, slice_stop, clip_index, slice_count.
    destruct (Z.ltb_spec (- s) 0); [|lia]. change (-1 <? 0) with true. cbv iota.
    pose proof (zlen_nonneg y).
    destruct (Z.ltb_spec (Z.max (-1 + zlen y) (-1)) (zlen y - 1)) as [Hlt|Hlt]; [exfalso; lia|reflexivity]. }
  destruct (flip (py_slice None (Some (-1)) (- s) y)); [reflexivity|].
  unfold zlen in H0; simpl in H0; lia.
Qed.

(** Slices with open ends *)
Lemma py_sub_from {A} (l : list A) a :
  0 <= a -> zlen (py_sub (Some a) None l) = Z.max 0 (zlen l - a) /\
  forall i, 0 <= i < zlen l - a -> Znth (py_sub (Some a) None l) i = Znth l (a + i).
Proof.
  intros Ha. pose proof (zlen_nonneg l).
  destruct (py_slice_spec l (Some a) None 1 ltac:(lia)) as [_ [H1 H2]].
  unfold py_sub. rewrite H1. cbv zeta in *.
  assert (E1 : slice_start 1 (zlen l) (Some a) = Z.min a (zlen l)).
  { unfold slice_start, clip_index. destruct (Z.ltb_spec a 0); simpl; lia. }
  assert (E2 : slice_stop 1 (zlen l) None = zlen l) by reflexivity.
  assert (E3 : slice_count 1 (Z.min a (zlen l)) (zlen l) = Z.max 0 (zlen l - a)).
  { unfold slice_count. simpl. destruct (Z.ltb_spec (Z.min a (zlen l)) (zlen l)); [rewrite Z.div_1_r|]; lia. }
  rewrite E1, E2, E3 in *. split; [reflexivity|]. intros i Hi. rewrite H2 by lia. f_equal; lia.
Qed.
Lemma py_sub_drop_last {A} (l : list A) k :
  1 <= k -> zlen (py_sub None (Some (- k)) l) = Z.max 0 (zlen l - k) /\
  forall i, 0 <= i < zlen l - k -> Znth (py_sub None (Some (- k)) l) i = Znth l i.
Proof.
  intros Hk. pose proof (zlen_nonneg l).
  destruct (py_slice_spec l None (Some (- k)) 1 ltac:(lia)) as [_ [H1 H2]].
  unfold py_sub. rewrite H1. cbv zeta in *.
  assert (E1 : slice_start 1 (zlen l) None = 0) by reflexivity.
  assert (E2 : slice_stop 1 (zlen l) (Some (- k)) = Z.max (zlen l - k) 0).
  { unfold slice_stop, clip_index. destruct (Z.ltb_spec (- k) 0); simpl; lia. }
  assert (E3 : slice_count 1 0 (Z.max (zlen l - k) 0) = Z.max 0 (zlen l - k)).
  { unfold slice_count. simpl. destruct (Z.ltb_spec 0 (Z.max (zlen l - k) 0)); [rewrite Z.div_1_r|]; lia. }
  rewrite E1, E2, E3 in *. split; [reflexivity|]. intros i Hi. rewrite H2 by lia. f_equal; lia.
Qed.

Lemma lab_transform_spec {A} (X : list A) size nf :
  1 <= size -> 1 <= nf -> size <= zlen X -> nf <= zlen X ->
  zlen (lab_transform size nf X) = zlen X - Z.max nf (size - 1) /\
  forall i, 0 <= i < zlen X - Z.max nf (size - 1) ->
    Znth (lab_transform size nf X) i = Znth X (Z.max 0 (size - 1 - nf) + i).
Proof.
  intros Hs Hf Hn Hn'. unfold lab_transform.
  destruct (py_sub_drop_last X nf Hf) as [L1 N1].
  destruct (Z.ltb_spec nf (size - 1)).
  - destruct (py_sub_from (py_sub None (Some (- nf)) X) (size - 1 - nf)) as [L2 N2]; [lia|].
    split; [lia|]. intros i Hi. rewrite N2 by lia. rewrite N1 by lia. f_equal; lia.
  - split; [lia|]. intros i Hi. rewrite N1 by lia. f_equal; lia.
Qed.

Lemma lab_cut_spec {B} (yr : list B) size nf :
  1 <= size -> 1 <= nf ->
  zlen (lab_cut size nf yr) = Z.max 0 (zlen yr - Z.max 0 (nf - size + 1)) /\
  forall i, 0 <= i < zlen yr - Z.max 0 (nf - size + 1) ->
    Znth (lab_cut size nf yr) i = Znth yr (Z.max 0 (nf - size + 1) + i).
Proof.
  intros Hs Hf. unfold lab_cut. pose proof (zlen_nonneg yr).
  destruct (Z.ltb_spec (size - 1) nf).
  - destruct (py_sub_from yr (nf - size + 1)) as [L2 N2]; [lia|].
    split; [lia|]. intros i Hi. rewrite N2 by lia. f_equal; lia.
  - split; [lia|]. intros i Hi. f_equal; lia.
Qed.

(** Values paired with transform outputs. *)
Lemma lab_values_ok {A} (func : list A -> fl) size (y : list A) :
  1 <= size -> size <= zlen y ->
  exists V, lab_values func size y = Ok V /\ zlen V = zlen y - size + 1 /\
    forall i, 0 <= i < zlen V -> exists w, Znth V i = Some (func w) /\ zlen w = size /\
      forall j, 0 <= j < size -> Znth w j = Znth y (i + j).
Proof.
  intros Hs Hn. destruct (sw_transform_ok y size 1 Hs ltac:(lia) Hn) as [W [HW [HL H]]].
  unfold lab_values. rewrite HW. simpl. exists (map func W). rewrite zlen_map.
  rewrite Z.div_1_r in HL. split; [reflexivity|]. split; [lia|].
  intros i Hi. destruct (H i Hi) as [w [H1 [H2 H3]]]. exists w.
  rewrite Znth_map, H1. split; [reflexivity|]. split; [assumption|].
  intros j Hj. rewrite H3 by lia. f_equal; lia.
Qed.

(** *** Classes *)
Fixpoint crossings (v : fl) (prev : fl) (ts : list fl) : list bool :=
  match ts with
  | [] => [fle prev v]
  | t :: rest => (fle prev v && flt v t) :: crossings v t rest
  end.
Lemma class_row_crossings ts v :
  ts <> [] -> class_row ts v = Ok (crossings v f0 ts).
Proof.
  destruct ts as [|t0 ts]; [easy|]. intros _.
  unfold class_row.
  assert (H1 : py_get (t0 :: ts) 0 = Ok t0) by reflexivity.
  rewrite H1. cbn [bind].
  assert (G : forall ts t0, exists tl, py_get (t0 :: ts) (-1) = Ok tl /\
    middle_classes v (t0 :: ts) ++ [fle tl v] = crossings v t0 ts).
  { clear. induction ts as [|t1 ts IH]; intros t0.
    - exists t0. split; reflexivity.
    - destruct (IH t1) as [tl [H1 H2]]. exists tl. split.
      + unfold py_get in *. rewrite !zlen_cons in *. change (-1 <? 0) with true in *. cbv iota in *.
        rewrite Znth_cons by (pose proof (zlen_nonneg ts); lia).
        replace (-1 + (zlen ts + 1 + 1) - 1) with (-1 + (zlen ts + 1)) by lia. exact H1.
      + change (middle_classes v (t0 :: t1 :: ts)) with ((fle t0 v && flt v t1) :: middle_classes v (t1 :: ts)).
        simpl. f_equal. exact H2. }
  destruct (G ts t0) as [tl [H2 H3]]. rewrite H2. cbn [bind]. simpl crossings. rewrite <- H3. reflexivity.
Qed.

Lemma nonzero_cols_cons b r :
  nonzero_cols (b :: r) = (if b then [0] else []) ++ map (Z.add 1) (nonzero_cols r).
Proof.
  unfold nonzero_cols. rewrite zlen_cons.
  pose proof (zlen_nonneg r).
  unfold arange at 1. rewrite tabZ_S_front by lia. cbn [flat_map].
  rewrite Znth_0. replace (match b with true => [0] | false => [] end) with (if b then [0] else []) by (now destruct b).
  f_equal. rewrite tabZ_arange.
  assert (G : forall ks, (forall k, In k ks -> 0 <= k) ->
    flat_map (fun k => match Znth (b :: r) k with Some true => [k] | _ => [] end) (map (fun i => i + 1) ks)
    = map (Z.add 1) (flat_map (fun k => match Znth r k with Some true => [k] | _ => [] end) ks)).
  { induction ks as [|k ks IH]; intros Hk; [reflexivity|]. simpl.
    rewrite IH by (intros; apply Hk; simpl; auto).
    rewrite Znth_cons by (specialize (Hk k (or_introl eq_refl)); lia).
    replace (k + 1 - 1) with k by lia.
    destruct (Znth r k) as [[]|]; cbn [app map]; try reflexivity. f_equal. lia. }
  apply G. intros k Hk. apply In_arange in Hk. lia.
Qed.
Lemma In_nonzero_cols r k : In k (nonzero_cols r) <-> Znth r k = Some true.
Proof.
  unfold nonzero_cols. rewrite in_flat_map. split.
  - intros [j [Hj Hk]]. destruct (Znth r j) as [[]|] eqn:E; simpl in Hk; try easy.
    destruct Hk as [<-|[]]. assumption.
  - intros H. exists k. rewrite H. split; [|simpl; auto]. apply In_arange.
    now apply Znth_Some_lt in H.
Qed.

(** At least one class applies to every non-NaN value [>= prev] *)
Lemma crossings_ex v prev ts :
  isnan v = false -> (forall t, In t ts -> isnan t = false) -> fle prev v = true ->
  1 <= zlen (nonzero_cols (crossings v prev ts)).
Proof.
  intros Hv. revert prev; induction ts as [|t ts IH]; intros prev Ht Hp.
  - simpl crossings. rewrite nonzero_cols_cons, Hp. unfold zlen; simpl. lia.
  - simpl crossings. rewrite nonzero_cols_cons, Hp, zlen_app, zlen_map. simpl andb.
    destruct (flt v t) eqn:E.
    + pose proof (zlen_nonneg (nonzero_cols (crossings v t ts))). change (zlen [0]) with 1. lia.
    + specialize (IH t ltac:(intros; apply Ht; simpl; auto)
        (flt_false _ _ Hv (Ht t (or_introl eq_refl)) E)).
      pose proof (zlen_nonneg (@nil Z)). lia.
Qed.

Lemma fabs_nonneg v : isnan v = false -> fle f0 (fabs v) = true.
Proof.
  destruct v; simpl; try easy. intros _. destruct (Qcleb_spec 0%Qc q); simpl.
  - now apply Qcleb_le.
  - apply Qcleb_le. qneg. qlra.
Qed.
Lemma fabs_nan v : isnan (fabs v) = isnan v.
Proof. destruct v; simpl; try easy. now destruct (Qcleb 0 q). Qed.

(** When the flattened matrix has one entry per row and every row has at
    least one, every row has exactly one. *)
Lemma concat_one_each {A} (L : list (list A)) :
  (forall r, In r L -> 1 <= zlen r) -> zlen (concat L) = zlen L ->
  exists f, L = map (fun x => [x]) f /\ concat L = f.
Proof.
  induction L as [|r L IH]; intros H E.
  - exists []. split; reflexivity.
  - simpl in E. rewrite zlen_app, zlen_cons in E.
    assert (Hr : 1 <= zlen r) by (apply H; simpl; auto).
    assert (HL : zlen L <= zlen (concat L)).
    { clear - H. induction L as [|r' L IH]; simpl; [unfold zlen; simpl; lia|].
      rewrite zlen_app, zlen_cons. assert (1 <= zlen r') by (apply H; simpl; auto).
      assert (zlen L <= zlen (concat L)).
      { apply IH. intros q Hq. apply H. simpl in *. tauto. } lia. }
    destruct IH as [f [Hf1 Hf2]]. { intros; apply H; simpl; auto. } { lia. }
    destruct r as [|x [|y r]].
    + unfold zlen in Hr; simpl in Hr; lia.
    + exists (x :: f). simpl. rewrite Hf2. split; [now rewrite Hf1 at 1|reflexivity].
    + rewrite !zlen_cons in E. pose proof (zlen_nonneg r). lia.
Qed.

Lemma crossings_Znth v prev ts k :
  0 <= k <= zlen ts ->
  Znth (crossings v prev ts) k =
  Some ((match Znth (prev :: ts) k with Some lo => fle lo v | None => false end) &&
        (match Znth ts k with Some hi => flt v hi | None => true end)).
Proof.
  revert prev k; induction ts as [|t ts IH]; intros prev k Hk.
  - unfold zlen in Hk; simpl in Hk. assert (k = 0) by lia. subst. cbn. now rewrite andb_true_r.
  - rewrite zlen_cons in Hk. destruct (Z.eq_dec k 0) as [->|Hk0].
    + reflexivity.
    + simpl crossings. rewrite !(Znth_cons _ _ k) by lia. rewrite IH by lia. reflexivity.
Qed.
Lemma zlen_crossings v prev ts : zlen (crossings v prev ts) = zlen ts + 1.
Proof. revert prev; induction ts as [|t ts IH]; intros prev; cbn [crossings]; [reflexivity|]. rewrite zlen_cons, IH, zlen_cons. lia. Qed.

Lemma mapM_class_row ts vs :
  ts <> [] -> mapM (class_row ts) vs = Ok (map (fun v => crossings v f0 ts) vs).
Proof. intros H. apply mapM_Ok. intros v _. now apply class_row_crossings. Qed.

Lemma in_class_nonzero ts k v :
  fle f0 v = true ->
  (In k (nonzero_cols (crossings v f0 ts)) <-> in_class ts k v).
Proof.
  intros H0. rewrite In_nonzero_cols. unfold in_class. split.
  - intros H. assert (Hk := H). apply Znth_Some_lt in Hk. rewrite zlen_crossings in Hk.
    rewrite crossings_Znth in H by lia. injection H as H. apply andb_true_iff in H. destruct H as [Ha Hb].
    split; [lia|]. split.
    + intros lo Hlo. assert (Hl := Znth_Some_lt _ _ _ Hlo). rewrite Znth_cons in Ha by lia. now rewrite Hlo in Ha.
    + intros hi Hhi. now rewrite Hhi in Hb.
  - intros [Hk [Ha Hb]]. rewrite crossings_Znth by lia. f_equal. apply andb_true_iff. split.
    + destruct (Z.eq_dec k 0) as [->|]; [assumption|]. rewrite Znth_cons by lia.
      destruct (Znth_ex ts (k - 1) ltac:(lia)) as [lo Hlo]. rewrite Hlo. auto.
    + destruct (Znth ts k) eqn:E; auto.
Qed.

Lemma nonzero_cols_NoDup r : NoDup (nonzero_cols r).
Proof.
  induction r as [|b r IH]; [constructor|]. rewrite nonzero_cols_cons.
  assert (N : NoDup (map (Z.add 1) (nonzero_cols r))).
  { apply FinFun.Injective_map_NoDup; [intros a c; lia|assumption]. }
  destruct b; [|exact N]. simpl. constructor; [|exact N].
  intros H. apply in_map_iff in H. destruct H as [k [Hk Hin]]. apply In_nonzero_cols in Hin.
  apply Znth_Some_lt in Hin. lia.
Qed.

Lemma lab_classify_spec ts vals :
  ts <> [] -> (forall t, In t ts -> isnan t = false) -> (forall v, In v vals -> isnan v = false) ->
  match lab_classify ts vals with
  | Ok labels => zlen labels = zlen vals /\
      forall i v, Znth vals i = Some v -> exists k, Znth labels i = Some k /\
        forall k', in_class ts k' (fabs v) <-> k' = k
  | Err e => e = ValueError /\ exists v k k', In v vals /\ k <> k' /\
       in_class ts k (fabs v) /\ in_class ts k' (fabs v)
  end.
Proof.
  intros Hne Ht Hv. unfold lab_classify. rewrite mapM_class_row by assumption. simpl.
  rewrite map_map. rewrite zlen_map.
  set (L := map (fun x => nonzero_cols (crossings x f0 ts)) (map fabs vals)).
  assert (HL : forall r, In r L -> 1 <= zlen r).
  { intros r Hr. unfold L in Hr. rewrite map_map in Hr. apply in_map_iff in Hr. destruct Hr as [v [<- Hin]].
    apply crossings_ex; [rewrite fabs_nan; auto|assumption|apply fabs_nonneg; auto]. }
  assert (LL : zlen L = zlen vals) by (unfold L; now rewrite !zlen_map).
  destruct (Z.eqb_spec (zlen (concat L)) (zlen vals)) as [E|E].
  - destruct (concat_one_each L HL ltac:(lia)) as [f [Hf Hc]]. rewrite Hc in *.
    split; [assumption|]. intros i v Hi.
    assert (E1 : Znth L i = Some (nonzero_cols (crossings (fabs v) f0 ts))).
    { unfold L. rewrite map_map, Znth_map, Hi. reflexivity. }
    rewrite Hf, Znth_map in E1. destruct (Znth f i) as [k|] eqn:Ek; [|discriminate].
    simpl in E1. injection E1 as E1. exists k. split; [reflexivity|]. intros k'.
    rewrite <- in_class_nonzero by (apply fabs_nonneg; apply Hv; eapply Znth_In; eauto).
    rewrite <- E1. simpl. intuition congruence.
  - split; [reflexivity|].
    assert (G : exists r, In r L /\ 2 <= zlen r).
    { rewrite <- LL in E. clear - HL E. induction L as [|r L IH]; [exfalso; apply E; reflexivity|].
      destruct (Z_le_dec 2 (zlen r)) as [Hr|Hr]; [exists r; simpl; auto|].
      assert (zlen r = 1) by (specialize (HL r (or_introl eq_refl)); lia).
      destruct IH as [r' [Hin Hr']].
      + intros; apply HL; simpl; auto.
      + simpl in E. rewrite zlen_app, zlen_cons in E. lia.
      + exists r'. simpl; auto. }
    destruct G as [r [Hr H2]]. unfold L in Hr. rewrite map_map in Hr. apply in_map_iff in Hr.
    destruct Hr as [v [<- Hin]].
    assert (N := nonzero_cols_NoDup (crossings (fabs v) f0 ts)).
    destruct (nonzero_cols (crossings (fabs v) f0 ts)) as [|k [|k' r]] eqn:Er.
    + unfold zlen in H2; simpl in H2; lia.
    + unfold zlen in H2; simpl in H2; lia.
    + exists v, k, k'. split; [assumption|]. split.
      * intros ->. inversion N. simpl in *. tauto.
      * assert (F := fabs_nonneg v (Hv v Hin)). split; apply in_class_nonzero; try assumption;
          rewrite Er; simpl; auto.
Qed.

(** sorted thresholds: classification always succeeds *)
Lemma sorted_class_unique ts v k k' :
  (forall i j a b, 0 <= i <= j -> Znth ts i = Some a -> Znth ts j = Some b -> fle a b = true) ->
  in_class ts k v -> in_class ts k' v -> k = k'.
Proof.
  intros Hs. assert (G : forall k k', in_class ts k v -> in_class ts k' v -> ~ k < k').
  { clear k k'. intros k k' [Hk [Ha Hb]] [Hk' [Ha' Hb']] Hlt.
    destruct (Znth_ex ts k ltac:(lia)) as [hi Hhi].
    destruct (Znth_ex ts (k' - 1) ltac:(lia)) as [lo Hlo].
    specialize (Hb hi Hhi). specialize (Ha' lo Hlo).
    assert (fle hi lo = true) by (apply (Hs k (k' - 1)); auto; lia).
    assert (flt v v = true).
    { eapply flt_fle_trans; [exact Hb|]. eapply fle_trans; eauto. }
    rewrite flt_irrefl in *. discriminate. }
  intros H H'. pose proof (G k k' H H'). pose proof (G k' k H' H). lia.
Qed.

(** *** Resampler / Stationarizer *)
Lemma step_slice_spec {A} (l : list A) p :
  1 <= p ->
  zlen (py_slice None None p l) = (zlen l + p - 1) / p /\
  forall i, 0 <= i < (zlen l + p - 1) / p -> Znth (py_slice None None p l) i = Znth l (i * p).
Proof.
  intros Hp. pose proof (zlen_nonneg l).
  destruct (py_slice_spec l None None p ltac:(lia)) as [_ [H1 H2]].
  cbv zeta in *. unfold slice_start, slice_stop in *. destruct (Z.ltb_spec p 0); [lia|].
  assert (E : slice_count p 0 (zlen l) = (zlen l + p - 1) / p).
  { unfold slice_count. destruct (Z.ltb_spec p 0); [lia|]. destruct (Z.ltb_spec 0 (zlen l)).
    - replace (zlen l + p - 1) with (zlen l - 0 - 1 + 1 * p) by lia. rewrite Z.div_add by lia. reflexivity.
    - symmetry. apply Z.div_small. lia. }
  rewrite E in *. split; [assumption|]. intros i Hi. rewrite H2 by lia. f_equal; lia.
Qed.
Lemma py_sub_all {A} (l : list A) : py_sub None None l = l.
Proof.
  destruct (step_slice_spec l 1 ltac:(lia)) as [H1 H2]. replace (zlen l + 1 - 1) with (zlen l) in * by lia.
  rewrite Z.div_1_r in *. apply Znth_ext; [exact H1|]. unfold py_sub. intros i Hi. rewrite H2 by lia. f_equal; lia.
Qed.

Lemma zlen_diff1 l : zlen (diff1 l) = Z.max 0 (zlen l - 1).
Proof.
  induction l as [|x [|y l] IH]; [reflexivity|reflexivity|].
  change (diff1 (x :: y :: l)) with (fsub y x :: diff1 (y :: l)). rewrite zlen_cons, IH, !zlen_cons.
  pose proof (zlen_nonneg l). lia.
Qed.
Lemma Znth_diff1 l i a b : Znth l i = Some a -> Znth l (i + 1) = Some b -> Znth (diff1 l) i = Some (fsub b a).
Proof.
  revert i; induction l as [|x [|y l] IH]; intros i Ha Hb.
  - apply Znth_Some_lt in Ha. unfold zlen in Ha; simpl in Ha; lia.
  - apply Znth_Some_lt in Hb. apply Znth_Some_lt in Ha. unfold zlen in *; simpl in *; lia.
  - assert (Hi := Znth_Some_lt _ _ _ Ha). destruct (Z.eq_dec i 0) as [->|].
    + injection Ha as <-. injection Hb as <-. reflexivity.
    + change (diff1 (x :: y :: l)) with (fsub y x :: diff1 (y :: l)). rewrite Znth_cons by lia.
      rewrite Znth_cons in Ha by lia. rewrite Znth_cons in Hb by lia.
      apply IH; [assumption|]. replace (i - 1 + 1) with (i + 1 - 1) by lia. assumption.
Qed.
Lemma zlen_zipWith {A B C} (f : A -> B -> C) l l' : zlen (zipWith f l l') = Z.min (zlen l) (zlen l').
Proof.
  revert l'; induction l as [|x l IH]; intros [|y l']; cbn [zipWith].
  - reflexivity.
  - rewrite (zlen_cons y l'). pose proof (zlen_nonneg l'). change (zlen (@nil C)) with 0. change (zlen (@nil A)) with 0. lia.
  - rewrite (zlen_cons x l). pose proof (zlen_nonneg l). change (zlen (@nil C)) with 0. change (zlen (@nil B)) with 0. lia.
  - rewrite (zlen_cons x l), (zlen_cons y l'), zlen_cons, IH. lia.
Qed.
Lemma Znth_zipWith {A B C} (f : A -> B -> C) l l' i a b :
  Znth l i = Some a -> Znth l' i = Some b -> Znth (zipWith f l l') i = Some (f a b).
Proof.
  revert l' i; induction l as [|x l IH]; intros [|y l'] i Ha Hb.
  1,2,3: exfalso; apply Znth_Some_lt in Ha; apply Znth_Some_lt in Hb; unfold zlen in *; simpl in *; lia.
  assert (Hi := Znth_Some_lt _ _ _ Ha). destruct (Z.eq_dec i 0) as [->|].
  - injection Ha as <-. injection Hb as <-. reflexivity.
  - simpl zipWith. rewrite Znth_cons by lia. rewrite Znth_cons in Ha by lia. rewrite Znth_cons in Hb by lia. apply IH; assumption.
Qed.

(** *** argmin *)
Lemma fold_min_spec t : forall x,
  let m := fold_left (fun m y => if Qcltb y m then y else m) t x in
  In m (x :: t) /\ (forall y, In y (x :: t) -> (m <= y)%Qc).
Proof.
  induction t as [|y t IH]; intros x; cbn [fold_left].
  - split; [simpl; auto|]. intros y [<-|[]]. apply Qcle_refl.
  - specialize (IH (if Qcltb y x then y else x)). cbv zeta in IH. destruct IH as [H1 H2].
    split.
    + destruct (Qcltb y x); simpl in *; tauto.
    + intros z Hz.
      assert (Hm : (fold_left (fun m y => if Qcltb y m then y else m) t (if Qcltb y x then y else x)
                   <= (if Qcltb y x then y else x))%Qc) by (apply H2; simpl; auto).
      destruct (Qcltb_spec y x) as [Hyx|Hyx]; simpl in Hz.
      * destruct Hz as [<-|[<-|Hz]]; [qlra|exact Hm|]. apply H2; simpl; auto.
      * apply Qcnlt in Hyx. destruct Hz as [<-|[<-|Hz]]; [exact Hm| |apply H2; simpl; auto].
        eapply Qcle_trans; eauto.
Qed.
Lemma py_min_spec l : l <> [] -> exists m, py_min l = Ok m /\ In m l /\ forall y, In y l -> (m <= y)%Qc.
Proof.
  destruct l as [|x t]; [easy|]. intros _. simpl py_min. eexists; split; [reflexivity|].
  apply fold_min_spec.
Qed.
Lemma py_index_spec l x : In x l -> exists i, py_index l x = Ok i /\ Znth l i = Some x /\
  forall j y, 0 <= j < i -> Znth l j = Some y -> y <> x.
Proof.
  induction l as [|y t IH]; [easy|]. intros Hin. simpl py_index.
  destruct (Qceqb_spec y x) as [->|Hne].
  - exists 0. split; [reflexivity|]. split; [reflexivity|]. intros; lia.
  - destruct Hin as [->|Hin]; [easy|]. destruct (IH Hin) as [i [H1 [H2 H3]]]. rewrite H1.
    assert (Hi := Znth_Some_lt _ _ _ H2).
    exists (i + 1). split; [reflexivity|]. split.
    + rewrite Znth_cons by lia. now replace (i + 1 - 1) with i by lia.
    + intros j z Hj Hz. destruct (Z.eq_dec j 0) as [->|].
      * injection Hz as <-. exact Hne.
      * rewrite Znth_cons in Hz by lia. eapply H3; [|exact Hz]. lia.
Qed.
Lemma argmin_spec l : l <> [] -> exists m i, py_min l = Ok m /\ py_index l m = Ok i /\
  Znth l i = Some m /\ (forall j y, Znth l j = Some y -> (m <= y)%Qc) /\
  (forall j y, 0 <= j < i -> Znth l j = Some y -> (m < y)%Qc).
Proof.
  intros H. destruct (py_min_spec l H) as [m [H1 [H2 H3]]].
  destruct (py_index_spec l m H2) as [i [H4 [H5 H6]]].
  exists m, i. repeat (split; [assumption|]). split.
  - intros j y Hy. apply H3. eapply Znth_In; eauto.
  - intros j y Hj Hy. specialize (H6 j y Hj Hy). specialize (H3 y (Znth_In _ _ _ Hy)).
    apply Qcle_lt_or_eq in H3. destruct H3 as [H3|H3]; [exact H3|congruence].
Qed.

Lemma prange1_tab a b : prange a b 1 = tabZ (b - a) (fun k => a + k).
Proof.
  unfold prange. unfold slice_count. change (1 <? 0) with false. cbv iota.
  destruct (Z.ltb_spec a b).
  - rewrite Z.div_1_r. replace (b - a - 1 + 1) with (b - a) by lia. apply tabZ_ext. intros; lia.
  - rewrite !tabZ_nil by lia. reflexivity.
Qed.

Lemma variation_ok f D dim :
  2 <= dim <= D -> variation (map f (prange 1 (D + 3) 1)) dim = Ok (dim_score f dim).
Proof.
  intros Hd. unfold variation. rewrite prange1_tab, tabZ_map.
  rewrite (py_get_in _ (dim - 1) (f dim)); [|lia|rewrite Znth_tabZ by lia; f_equal; f_equal; lia].
  cbn [bind].
  rewrite (py_get_in _ dim (f (dim + 1))); [|lia|rewrite Znth_tabZ by lia; f_equal; f_equal; lia].
  cbn [bind].
  rewrite (py_get_in _ (dim + 1) (f (dim + 2))); [|lia|rewrite Znth_tabZ by lia; f_equal; f_equal; lia].
  reflexivity.
Qed.

Lemma takens_search_ok mi fnn T D :
  1 <= T -> 2 <= D ->
  exists t d, takens_optimal_parameters mi fnn T D = Ok (t, d) /\
    1 <= t <= T /\
    (forall t', 1 <= t' <= T -> (mi t <= mi t')%Qc) /\
    (forall t', 1 <= t' < t -> (mi t < mi t')%Qc) /\
    2 <= d <= D /\
    (forall d', 2 <= d' <= D -> (dim_score (fnn t) d <= dim_score (fnn t) d')%Qc) /\
    (forall d', 2 <= d' < d -> (dim_score (fnn t) d < dim_score (fnn t) d')%Qc).
Proof.
  intros HT HD. unfold takens_optimal_parameters.
  set (mis := map mi (prange 1 (T + 1) 1)).
  assert (Emis : mis = tabZ T (fun k => mi (1 + k))).
  { unfold mis. rewrite prange1_tab, tabZ_map. replace (T + 1 - 1) with T by lia. reflexivity. }
  assert (Lm : zlen mis = T) by (rewrite Emis; apply zlen_tabZ; lia).
  destruct (argmin_spec mis) as [m [i [H1 [H2 [H3 [H4 H5]]]]]].
  { intros E. rewrite E in Lm. unfold zlen in Lm; simpl in Lm; lia. }
  rewrite H1. cbn [bind]. rewrite H2. cbn [bind].
  assert (Hi := Znth_Some_lt _ _ _ H3). rewrite Lm in Hi.
  assert (N : forall k, 0 <= k < T -> Znth mis k = Some (mi (1 + k))).
  { intros k Hk. rewrite Emis. now rewrite Znth_tabZ. }
  assert (H3' : mi (1 + i) = m) by (rewrite (N i Hi) in H3; congruence). clear H3; rename H3' into H3.
  set (vars := map (dim_score (fnn (i + 1))) (prange 2 (D + 1) 1)).
  assert (Ev : mapM (variation (map (fnn (i + 1)) (prange 1 (D + 3) 1))) (prange 2 (D + 1) 1) = Ok vars).
  { apply mapM_Ok. intros d Hd. apply variation_ok. rewrite prange1_tab in Hd.
    apply In_tabZ in Hd. destruct Hd as [k [Hk <-]]. lia. }
  rewrite Ev. cbn [bind].
  assert (Evars : vars = tabZ (D - 1) (fun k => dim_score (fnn (i + 1)) (2 + k))).
  { unfold vars. rewrite prange1_tab, tabZ_map. replace (D + 1 - 2) with (D - 1) by lia. reflexivity. }
  assert (Lv : zlen vars = D - 1) by (rewrite Evars; apply zlen_tabZ; lia).
  destruct (argmin_spec vars) as [v [j [K1 [K2 [K3 [K4 K5]]]]]].
  { intros E. rewrite E in Lv. unfold zlen in Lv; simpl in Lv; lia. }
  rewrite K1. cbn [bind]. rewrite K2. cbn [bind].
  assert (Hj := Znth_Some_lt _ _ _ K3). rewrite Lv in Hj.
  assert (M : forall k, 0 <= k < D - 1 -> Znth vars k = Some (dim_score (fnn (i + 1)) (2 + k))).
  { intros k Hk. rewrite Evars. now rewrite Znth_tabZ. }
  assert (K3' : dim_score (fnn (i + 1)) (2 + j) = v) by (rewrite (M j Hj) in K3; congruence). clear K3; rename K3' into K3.
  exists (i + 1), (j + 2). split; [reflexivity|]. replace (i + 1) with (1 + i) in * by lia.
  replace (j + 2) with (2 + j) by lia. rewrite H3, K3.
  split; [lia|]. split; [|split; [|split; [lia|split]]].
  - intros t' Ht'. apply (H4 (t' - 1)). rewrite N by lia. do 2 f_equal. lia.
  - intros t' Ht'. apply (H5 (t' - 1)); [lia|]. rewrite N by lia. do 2 f_equal. lia.
  - intros d' Hd'. apply (K4 (d' - 2)). rewrite M by lia. do 2 f_equal. lia.
  - intros d' Hd'. apply (K5 (d' - 2)); [lia|]. rewrite M by lia. do 2 f_equal. lia.
Qed.
Lemma takens_search_dim1 mi fnn T : 1 <= T -> takens_optimal_parameters mi fnn T 1 = Err ValueError.
Proof.
  intros HT. unfold takens_optimal_parameters.
  set (mis := map mi (prange 1 (T + 1) 1)).
  assert (Lm : zlen mis = T).
  { unfold mis. rewrite prange1_tab, zlen_map, zlen_tabZ; lia. }
  destruct (argmin_spec mis) as [m [i [H1 [H2 _]]]].
  { intros E. rewrite E in Lm. unfold zlen in Lm; simpl in Lm; lia. }
  rewrite H1. cbn [bind]. rewrite H2. reflexivity.
Qed.

(** *** Multivariate (flattened) Takens embedding *)
Lemma tde_flatten_ok {A} (chans : list (list A)) n t d s elv :
  1 <= t -> 1 <= d -> 1 <= s -> t * (d - 1) + 1 <= n ->
  chans <> [] -> (forall x, In x chans -> zlen x = n) ->
  exists W, tde_flatten t d s elv chans = Ok W /\
    zlen W = (n - t * (d - 1) - 1) / s + 1 /\
    forall i, 0 <= i < zlen W -> exists w, Znth W i = Some w /\ zlen w = zlen chans * d /\
      forall c x, Znth chans c = Some x -> forall j, 0 <= j < d ->
        Znth w (c * d + j) = if elv
          then Znth x (n - 1 - (zlen W - 1 - i) * s - (d - 1 - j) * t)
          else Znth x (i * s + j * t).
Proof.
  intros Ht Hd Hs Hn Hne Hlen. unfold tde_flatten.
  set (P := (n - t * (d - 1) - 1) / s + 1).
  assert (HP : 0 <= P) by (unfold P; pose proof (Z.div_pos (n - t * (d - 1) - 1) s); lia).
  destruct (mapM_list_ok chans (tde t d s elv) (fun x W => zlen W = P /\
     forall i, 0 <= i < P -> exists w, Znth W i = Some w /\ zlen w = d /\
      forall j, 0 <= j < d ->
        Znth w j = if elv
          then Znth x (n - 1 - (P - 1 - i) * s - (d - 1 - j) * t)
          else Znth x (i * s + j * t))) as [emb [He HF]].
  { intros x Hx. specialize (Hlen x Hx).
    destruct (tde_ok x t d s elv Ht Hd Hs ltac:(lia)) as [W [H1 [H2 H3]]]. rewrite Hlen in *. fold P in H2.
    exists W. split; [exact H1|]. split; [exact H2|]. intros i Hi. rewrite H2 in H3. apply H3. lia. }
  rewrite He. cbn [bind].
  assert (EP : match emb with e :: _ => zlen e | [] => 0 end = P).
  { destruct HF; [easy|]. tauto. }
  rewrite EP. unfold transpose2.
  destruct (mapM_arange_ok P (fun p => mapM (fun r => py_get r p) emb)
     (fun p row => Forall2 (fun x v => zlen v = d /\ forall j, 0 <= j < d -> Znth v j = if elv
          then Znth x (n - 1 - (P - 1 - p) * s - (d - 1 - j) * t)
          else Znth x (p * s + j * t)) chans row)) as [tr [Htr [Ltr Ntr]]].
  { exact HP. }
  { intros p Hp. clear - HF Hp. induction HF as [|x W chans emb HW HF IH].
    - exists []. split; [reflexivity|constructor].
    - destruct IH as [row [H1 H2]]. destruct HW as [HL HW]. destruct (HW p Hp) as [w [Hw [Hwl Hwj]]].
      exists (w :: row). simpl. rewrite (py_get_in W p w) by (lia || assumption). simpl. rewrite H1. simpl.
      split; [reflexivity|]. constructor; auto. }
  rewrite Htr. cbn [bind]. exists (map (@concat A) tr). rewrite zlen_map. split; [reflexivity|].
  split; [exact Ltr|]. intros i Hi. destruct (Ntr i ltac:(lia)) as [row [Hrow HR]].
  exists (concat row). rewrite Znth_map, Hrow. split; [reflexivity|].
  assert (U : forall r, In r row -> zlen r = d).
  { intros r Hr. apply In_Znth in Hr. destruct Hr as [k [Hk Hr]].
    destruct (Znth_ex chans k) as [x Hx]. { apply Forall2_zlen in HR. lia. }
    destruct (Forall2_Znth _ _ _ _ _ _ HR Hx Hr) as [? _]. assumption. }
  split.
  - rewrite (zlen_concat_uniform row d U). apply Forall2_zlen in HR. congruence.
  - intros c x Hc j Hj. destruct (Znth_ex row c) as [v Hv].
    { apply Forall2_zlen in HR. apply Znth_Some_lt in Hc. lia. }
    rewrite (Znth_concat_uniform row d c j v U Hv Hj).
    destruct (Forall2_Znth _ _ _ _ _ _ HR Hc Hv) as [_ G]. rewrite G by lia.
    rewrite Ltr. reflexivity.
Qed.

(** *** Final forms used by TSThms *)
Lemma sw_transform_full {A} (X : list A) size stride :
    1 <= size -> 1 <= stride ->
    (zlen X < size -> sw_transform size stride X = Err ValueError) /\
    (size <= zlen X ->
       exists W, sw_transform size stride X = Ok W /\
         zlen W = (zlen X - size) / stride + 1 /\
         forall i, 0 <= i < zlen W -> exists w, Znth W i = Some w /\
           is_run X ((zlen X - size) mod stride + i * stride) size w /\
           (i = zlen W - 1 -> Znth w (size - 1) = Znth X (zlen X - 1))).
Proof.
  intros Hs Hst. split; [apply sw_transform_err; assumption|]. intros Hn.
  destruct (sw_transform_ok X size stride Hs Hst Hn) as [W [H1 [H2 H3]]].
  exists W. split; [assumption|]. split; [assumption|]. intros i Hi.
  destruct (H3 i Hi) as [w [Hw [Hl Hj]]]. exists w. split; [assumption|].
  assert (E : zlen X - size - (zlen W - 1 - i) * stride = (zlen X - size) mod stride + i * stride).
  { rewrite H2. pose proof (Z.div_mod (zlen X - size) stride ltac:(lia)). nia. }
  split.
  - split; [assumption|]. intros j Hj'. rewrite <- E, Hj by lia. split; [reflexivity|].
    destruct (Znth_ex w j ltac:(lia)) as [x Hx]. rewrite <- Hj by lia. congruence.
  - intros ->. rewrite Hj by lia. f_equal. lia.
Qed.

Lemma slice_windows_ok {A} (X : list A) size stride :
    1 <= size -> 1 <= stride -> size <= zlen X ->
    exists S, slice_windows size stride X = Ok S /\
      zlen S = (zlen X - size) / stride + 1 /\
      forall i, 0 <= i < zlen S ->
        Znth S i = Some ((zlen X - size) mod stride + i * stride,
                         (zlen X - size) mod stride + i * stride + size).
Proof.
  intros Hs Hst Hn. unfold slice_windows, window_indices.
  assert (Hq : 0 <= (zlen X - size) / stride) by (apply Z.div_pos; lia).
  destruct (Z.leb_spec ((zlen X - size) / stride + 1) 0); [lia|]. cbn [bind].
  set (nw := (zlen X - size) / stride + 1) in *. set (off := (zlen X - size) mod stride).
  rewrite tabZ_arange, mapM_map.
  exists (map (fun w => (off + w * stride, off + w * stride + size)) (arange nw)). split; [|split].
  - apply mapM_Ok. intros w Hw.
    rewrite (py_get_in _ 0 (w * stride + off)); [|lia|rewrite Znth_tabZ by lia; f_equal; lia].
    cbn [bind]. unfold py_get. change (-1 <? 0) with true. cbv iota.
    rewrite zlen_tabZ by lia. rewrite Znth_tabZ by lia. cbn [bind]. do 2 f_equal; lia.
  - rewrite zlen_map. apply zlen_arange; lia.
  - intros i Hi. rewrite zlen_map, zlen_arange in Hi by lia. rewrite Znth_map, Znth_arange by lia. reflexivity.
Qed.

Lemma sw_alignment {A B} (X : list A) (y : list B) (size stride : Z) :
    2 <= size -> 1 <= stride -> size <= zlen X -> zlen y = zlen X ->
    exists W yr, sw_transform_resample size stride X y = Ok (W, yr) /\
      zlen yr = zlen W /\
      forall i, 0 <= i < zlen W -> exists w a,
        Znth W i = Some w /\ is_run X a size w /\
        Znth yr i = Znth y (a + size - 1) /\ Znth yr i <> None.
Proof.
  intros Hs Hst Hn Hy. destruct (sw_transform_full X size stride ltac:(lia) Hst) as [_ H].
  destruct (H Hn) as [W [H1 [H2 H3]]].
  exists W, (sw_resample size stride y). unfold sw_transform_resample, transform_resample.
  rewrite H1. split; [reflexivity|].
  assert (L : zlen (sw_resample size stride y) = zlen W).
  { rewrite sw_resample_len by lia. rewrite H2, Hy. reflexivity. }
  split; [exact L|].
  intros i Hi. destruct (H3 i Hi) as [w [Hw [Hr _]]]. exists w, ((zlen X - size) mod stride + i * stride).
  split; [assumption|]. split; [assumption|]. split.
  - rewrite sw_resample_Znth by (rewrite ?Hy; lia). f_equal. rewrite Hy.
    pose proof (Z.div_mod (zlen X - size) stride ltac:(lia)). nia.
  - destruct (Znth_ex (sw_resample size stride y) i ltac:(lia)). congruence.
Qed.
Lemma sw_size1 {A B} (X : list A) (y : list B) (stride : Z) :
    1 <= stride -> 1 <= zlen X -> zlen y = zlen X ->
    exists W, sw_transform_resample 1 stride X y = Ok (W, []) /\ 1 <= zlen W.
Proof.
  intros Hst Hn Hy. destruct (sw_transform_ok X 1 stride ltac:(lia) Hst Hn) as [W [H1 [H2 _]]].
  exists W. unfold sw_transform_resample, transform_resample. rewrite H1. cbn [bind].
  unfold sw_resample. change (1 - 2) with (-1). rewrite slice_to_minus1_empty by assumption.
  split; [reflexivity|]. rewrite H2. pose proof (Z.div_pos (zlen X - 1) stride). lia.
Qed.

Lemma tde_full {A} (X : list A) (t d s : Z) (elv : bool) :
    1 <= t -> 1 <= d -> 1 <= s ->
    (zlen X < t * (d - 1) + 1 -> tde t d s elv X = Err ValueError) /\
    (t * (d - 1) + 1 <= zlen X ->
       exists W, tde t d s elv X = Ok W /\
         zlen W = (zlen X - t * (d - 1) - 1) / s + 1 /\
         forall i, 0 <= i < zlen W -> exists w, Znth W i = Some w /\
           is_delay_vector X
             ((if elv then (zlen X - t * (d - 1) - 1) mod s else 0) + i * s) t d w /\
           (elv = true -> i = zlen W - 1 -> Znth w (d - 1) = Znth X (zlen X - 1))).
Proof.
  intros Ht Hd Hs. split; [apply tde_err; assumption|]. intros Hn.
  destruct (tde_ok X t d s elv Ht Hd Hs Hn) as [W [H1 [H2 H3]]].
  exists W. split; [assumption|]. split; [assumption|]. intros i Hi.
  destruct (H3 i Hi) as [w [Hw [Hl Hj]]]. exists w. split; [assumption|].
  assert (E : forall j, (if elv then zlen X - 1 - (zlen W - 1 - i) * s - (d - 1 - j) * t else i * s + j * t)
     = (if elv then (zlen X - t * (d - 1) - 1) mod s else 0) + i * s + j * t).
  { intros j. destruct elv; [|lia]. rewrite H2.
    pose proof (Z.div_mod (zlen X - t * (d - 1) - 1) s ltac:(lia)). nia. }
  assert (Hj' : forall j, 0 <= j < d -> Znth w j =
     Znth X ((if elv then (zlen X - t * (d - 1) - 1) mod s else 0) + i * s + j * t)).
  { intros j Hj0. rewrite Hj by lia. rewrite <- E. now destruct elv. }
  split.
  - split; [assumption|]. intros j Hj0. split; [auto|].
    destruct (Znth_ex w j ltac:(lia)) as [x Hx]. congruence.
  - intros -> ->. rewrite Hj by lia. f_equal. lia.
Qed.

Lemma takens_collection {A} (X : list (list A)) (t d s : Z) (elv : bool) R :
    takens_transform t d s elv X = Ok R ->
    zlen R = zlen X /\
    forall i x r, Znth X i = Some x -> Znth R i = Some r -> tde t d s elv x = Ok r.
Proof.
  intros H. apply mapM_Ok_inv in H. split.
  - symmetry. eapply Forall2_zlen; eauto.
  - intros i x r Hx Hr. exact (Forall2_Znth _ _ _ _ _ _ H Hx Hr).
Qed.

Lemma ste_alignment {A B} (X : list A) (y : list B) (t d s : Z) :
    1 <= t -> 2 <= d -> 1 <= s -> t * (d - 1) + 1 <= zlen X -> zlen y = zlen X ->
    exists W yr, ste_transform_resample t d s X y = Ok (W, yr) /\
      zlen yr = zlen W /\
      forall i, 0 <= i < zlen W -> exists w a,
        Znth W i = Some w /\ is_delay_vector X a t d w /\
        Znth yr i = Znth y (a + (d - 1) * t) /\ Znth yr i <> None.
Proof.
  intros Ht Hd Hs Hn Hy. destruct (tde_full X t d s true Ht ltac:(lia) Hs) as [_ H].
  destruct (H Hn) as [W [H1 [H2 H3]]].
  exists W, (ste_resample t d s y). unfold ste_transform_resample, transform_resample, ste_transform.
  rewrite H1. split; [reflexivity|].
  assert (L : zlen (ste_resample t d s y) = zlen W).
  { rewrite ste_resample_len by lia. rewrite H2, Hy. reflexivity. }
  split; [exact L|].
  intros i Hi. destruct (H3 i Hi) as [w [Hw [Hr _]]].
  exists w, ((zlen X - t * (d - 1) - 1) mod s + i * s).
  split; [assumption|]. split; [assumption|]. split.
  - rewrite ste_resample_Znth by (rewrite ?Hy; lia). f_equal. rewrite Hy.
    pose proof (Z.div_mod (zlen X - t * (d - 1) - 1) s ltac:(lia)). nia.
  - destruct (Znth_ex (ste_resample t d s y) i ltac:(lia)). congruence.
Qed.
Lemma ste_dim1 {A B} (X : list A) (y : list B) (t s : Z) :
    1 <= t -> 1 <= s -> 1 <= zlen X -> zlen y = zlen X ->
    exists W, ste_transform_resample t 1 s X y = Ok (W, []) /\ 1 <= zlen W.
Proof.
  intros Ht Hs Hn Hy. destruct (tde_ok X t 1 s true Ht ltac:(lia) Hs ltac:(lia)) as [W [H1 [H2 _]]].
  exists W. unfold ste_transform_resample, transform_resample, ste_transform. rewrite H1. cbn [bind].
  unfold ste_resample. replace (t * (1 - 1) - 1) with (-1) by lia. rewrite slice_to_minus1_empty by assumption.
  split; [reflexivity|]. rewrite H2. pose proof (Z.div_pos (zlen X - t * (1 - 1) - 1) s). lia.
Qed.

Lemma labeller_align {A B} (func : list B -> fl) (X : list A) (y : list B) (size nf : Z) :
    1 <= size -> 1 <= nf -> size <= zlen X -> nf <= zlen X -> zlen y = zlen X ->
    exists yr, lab_resample_reg func size nf y = Ok yr /\
      zlen (lab_transform size nf X) = zlen yr /\
      zlen yr = zlen X - Z.max nf (size - 1) /\
      forall i, 0 <= i < zlen yr -> exists t w,
        Znth (lab_transform size nf X) i = Znth X t /\ 0 <= t < zlen X /\
        is_run y (t + nf - (size - 1)) size w /\
        Znth yr i = Some (func w).
Proof.
  intros Hs Hf Hn Hnf Hy.
  destruct (lab_values_ok func size y Hs ltac:(lia)) as [V [HV [LV NV]]].
  destruct (lab_transform_spec X size nf Hs Hf Hn Hnf) as [LX NX].
  destruct (lab_cut_spec V size nf Hs Hf) as [LC NC].
  exists (lab_cut size nf V). unfold lab_resample_reg. rewrite HV. cbn [bind]. split; [reflexivity|].
  assert (L : zlen (lab_cut size nf V) = zlen X - Z.max nf (size - 1)) by lia.
  split; [lia|]. split; [exact L|].
  intros i Hi. destruct (NV (Z.max 0 (nf - size + 1) + i) ltac:(lia)) as [w [H1 [H2 H3]]].
  exists (Z.max 0 (size - 1 - nf) + i), w. split; [apply NX; lia|]. split; [lia|]. split.
  - split; [assumption|]. intros j Hj. rewrite H3 by lia. split; [f_equal; lia|].
    destruct (Znth_ex w j ltac:(lia)). rewrite <- H3 by lia. congruence.
  - rewrite NC by lia. assumption.
Qed.
Lemma labeller_cls {B} (func : list B -> fl) (y : list B) (size nf : Z) ts c :
    1 <= size -> 1 <= nf ->
    lab_resample_cls func size nf ts y = Ok c ->
    exists v l, lab_values func size y = Ok v /\ lab_classify ts v = Ok l /\
      c = lab_cut size nf l /\
      lab_resample_reg func size nf y = Ok (lab_cut size nf v).
Proof.
  intros Hs Hf H. unfold lab_resample_cls in H. destruct (lab_values func size y) as [v|] eqn:Ev; [|discriminate].
  cbn [bind] in H. destruct (lab_classify ts v) as [l|] eqn:El; [|discriminate]. cbn [bind] in H.
  injection H as <-. exists v, l. repeat split; try assumption. unfold lab_resample_reg. now rewrite Ev.
Qed.
Lemma lab_classify_sorted ts vals :
    ts <> [] ->
    (forall t, In t ts -> isnan t = false) ->
    (forall v, In v vals -> isnan v = false) ->
    (forall i j a b, 0 <= i <= j -> Znth ts i = Some a -> Znth ts j = Some b -> fle a b = true) ->
    exists labels, lab_classify ts vals = Ok labels.
Proof.
  intros Hne Ht Hv Hs. pose proof (lab_classify_spec ts vals Hne Ht Hv) as H.
  destruct (lab_classify ts vals) as [l|e]; [eauto|]. exfalso.
  destruct H as [_ [v [k [k' [_ [Hk [H1 H2]]]]]]]. apply Hk. eapply sorted_class_unique; eauto.
Qed.
Lemma lab_classify_nil vals : vals <> [] -> lab_classify [] vals = Err IndexError.
Proof. destruct vals; [easy|]. reflexivity. Qed.

Lemma resampler_align {A B} (X : list A) (y : list B) (period : Z) :
    1 <= period -> zlen y = zlen X ->
    zlen (resampler_transform period X) = zlen (resampler_resample period y) /\
    zlen (resampler_transform period X) = (zlen X + period - 1) / period /\
    forall i, 0 <= i < zlen (resampler_transform period X) ->
      0 <= i * period < zlen X /\
      Znth (resampler_transform period X) i = Znth X (i * period) /\
      Znth (resampler_resample period y) i = Znth y (i * period).
Proof.
  intros Hp Hy. unfold resampler_transform, resampler_resample. rewrite py_sub_all.
  destruct (step_slice_spec X period Hp) as [L1 N1]. destruct (step_slice_spec y period Hp) as [L2 N2].
  rewrite Hy in *. split; [congruence|]. split; [assumption|]. intros i Hi. rewrite L1 in Hi.
  split; [|split; [apply N1|apply N2]; lia].
  assert (period * ((zlen X + period - 1) / period) <= zlen X + period - 1) by (apply Z.mul_div_le; lia).
  nia.
Qed.
Lemma stationarizer_align {B} (flog : fl -> fl) (X : list fl) (y : list B) :
    1 <= zlen X -> zlen y = zlen X ->
    zlen (stationarize_return X) = zlen X - 1 /\
    zlen (stationarize_log flog X) = zlen X - 1 /\
    zlen (stationarize_resample y) = zlen X - 1 /\
    forall i a b, Znth X i = Some a -> Znth X (i + 1) = Some b ->
      Znth (stationarize_return X) i = Some (fdiv (fsub b a) b) /\
      Znth (stationarize_log flog X) i = Some (fsub (flog b) (flog a)) /\
      Znth (stationarize_resample y) i = Znth y (i + 1).
Proof.
  intros Hn Hy. unfold stationarize_return, stationarize_log, stationarize_resample.
  destruct (py_sub_from X 1 ltac:(lia)) as [L1 N1]. destruct (py_sub_from y 1 ltac:(lia)) as [L2 N2].
  rewrite zlen_zipWith, !zlen_diff1, zlen_map, L1, L2.
  split; [lia|]. split; [lia|]. split; [lia|]. intros i a b Ha Hb.
  assert (Hi := Znth_Some_lt _ _ _ Ha). assert (Hi' := Znth_Some_lt _ _ _ Hb). split; [|split].
  - apply Znth_zipWith; [now apply Znth_diff1|]. rewrite N1 by lia. rewrite <- Hb. f_equal; lia.
  - apply Znth_diff1; rewrite Znth_map; [now rewrite Ha|now rewrite Hb].
  - rewrite N2 by lia. f_equal; lia.
Qed.
