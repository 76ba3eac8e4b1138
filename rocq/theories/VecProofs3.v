(** Lemmas for rasters: heat kernels and persistence images. *)
From Coq Require Import Permutation Sorted.
From Verif Require Import Np NpFacts Fl FlFacts DiagTypes DiagModel DiagSpec DiagProofs DiagProofs2
  VecModel VecSpec SliceFacts VecProofs VecProofs2.
Open Scope Z_scope.

(** *** 2D arrays *)
Lemma has_shape_row {A} n m (M : list (list A)) i : has_shape n m M -> 0 <= i < n -> exists r, Znth M i = Some r /\ zlen r = m.
Proof.
  intros [H1 H2] Hi. destruct (Znth_ex M i) as [r Hr]; [lia|]. exists r. split; [assumption|]. apply H2. eapply Znth_In; eassumption.
Qed.
Lemma entry_ex {A} n m (M : list (list A)) i j : has_shape n m M -> 0 <= i < n -> 0 <= j < m -> exists v, entry M i j = Some v.
Proof. intros H Hi Hj. destruct (has_shape_row _ _ _ _ H Hi) as [r [E L]]. unfold entry. rewrite E. apply Znth_ex. lia. Qed.
Lemma entry_ext {A} n m (M M' : list (list A)) : has_shape n m M -> has_shape n m M' ->
  (forall i j, 0 <= i < n -> 0 <= j < m -> entry M i j = entry M' i j) -> M = M'.
Proof.
  intros H H' E. pose proof H as [L R]. pose proof H' as [L' R']. apply Znth_ext; [lia|]. intros i Hi.
  destruct (has_shape_row _ _ _ i H) as [r [Er Lr]]; [lia|]. destruct (has_shape_row _ _ _ i H') as [r' [Er' Lr']]; [lia|].
  rewrite Er, Er'. f_equal. apply Znth_ext; [lia|]. intros j Hj. specialize (E i j ltac:(lia) ltac:(lia)). unfold entry in E.
  now rewrite Er, Er' in E.
Qed.
Lemma entry_tab {A} n m (f : Z -> Z -> A) i j : 0 <= i < n -> 0 <= j < m -> entry (tabZ n (fun i => tabZ m (f i))) i j = Some (f i j).
Proof. intros Hi Hj. unfold entry. rewrite Znth_tabZ by assumption. now rewrite Znth_tabZ. Qed.
Lemma has_shape_tab {A} n m (f : Z -> Z -> A) : 0 <= n -> 0 <= m -> has_shape n m (tabZ n (fun i => tabZ m (f i))).
Proof. intros Hn Hm. split; [now apply zlen_tabZ|]. intros r Hr. apply In_tabZ in Hr. destruct Hr as [i [_ <-]]. now apply zlen_tabZ. Qed.
Lemma zeros_shape n : 0 <= n -> has_shape n n (zeros n). Proof. intros. now apply has_shape_tab. Qed.
Lemma zeros_entry n i j : 0 <= i < n -> 0 <= j < n -> entry (zeros n) i j = Some 0%Qc.
Proof. intros. now apply entry_tab. Qed.

Lemma np_set2_ok {A} n m (M : list (list A)) i j v : has_shape n m M -> 0 <= i < n -> 0 <= j < m ->
  exists M', np_set2 M i j v = Ok M' /\ has_shape n m M' /\
    forall a b, entry M' a b = if (a =? i) && (b =? j) then Some v else entry M a b.
Proof.
  intros H Hi Hj. destruct (has_shape_row _ _ _ _ H Hi) as [r [Er Lr]]. destruct H as [L R].
  unfold np_set2. rewrite (py_get_in M i r) by (assumption || lia). cbn [bind].
  destruct (Znth_ex r j) as [w Hw]; [lia|]. rewrite (py_get_in r j w) by (assumption || lia). cbn [bind].
  destruct (Z.ltb_spec i 0); [lia|]. destruct (Z.ltb_spec j 0); [lia|]. eexists. split; [reflexivity|]. split; [split|].
  - now rewrite zlen_set_at.
  - intros r' Hr'. apply In_Znth in Hr'. destruct Hr' as [k [Hk E]]. rewrite Znth_set_at in E. destruct (Z.eqb_spec k i).
    + rewrite zlen_set_at in Hk. destruct (Znth M k) eqn:EM; [|discriminate]. cbn [option_map] in E. injection E as <-. now rewrite zlen_set_at.
    + apply R. eapply Znth_In; eassumption.
  - intros a b. unfold entry. rewrite Znth_set_at. destruct (Z.eqb_spec a i) as [->|]; cbn [andb]; [|reflexivity].
    rewrite Er. cbn [option_map]. rewrite Znth_set_at. destruct (Z.eqb_spec b j) as [->|]; [|reflexivity]. now rewrite Hw.
Qed.

(** *** counts *)
Definition count_pair (u : Z * Z) (l : list (Z * Z)) : Z := zlen (filter (pair_eqb u) l).
Lemma pair_eqb_spec a b : reflect (a = b) (pair_eqb a b).
Proof.
  destruct a as [a1 a2], b as [b1 b2]. unfold pair_eqb. cbn [fst snd].
  destruct (Z.eqb_spec a1 b1), (Z.eqb_spec a2 b2); constructor; subst; congruence.
Qed.
Lemma unique_counts_In l u c : In (u, c) (unique_counts l) -> In u l /\ c = count_pair u l.
Proof.
  induction l as [|x l IH]; [intros []|]. cbn [unique_counts]. intros [E|H].
  - assert (x = u) by congruence. assert (Ec : 1 + zlen (filter (pair_eqb x) l) = c) by congruence. subst. split; [now left|]. unfold count_pair. cbn [filter]. destruct (pair_eqb_spec u u); [|congruence]. rewrite zlen_cons. lia.
  - apply filter_In in H. destruct H as [H N]. apply IH in H. destruct H as [H ->]. split; [now right|].
    unfold count_pair. cbn [filter fst] in *. destruct (pair_eqb_spec u x) as [->|]; [|reflexivity].
    destruct (pair_eqb_spec x x); [discriminate|congruence].
Qed.
Lemma unique_counts_ex l u : In u l -> exists c, In (u, c) (unique_counts l).
Proof.
  induction l as [|x l IH]; [intros []|]. cbn [unique_counts]. intros [->|H]; [eexists; now left|].
  destruct (pair_eqb_spec x u) as [->|N]; [eexists; now left|]. destruct (IH H) as [c Hc]. exists c. right. apply filter_In. split; [assumption|].
  cbn [fst]. now destruct (pair_eqb_spec x u).
Qed.
Lemma write_all_ok n ucs (f : Z * Z -> Z) : forall im, has_shape n n im ->
  (forall u c, In (u, c) ucs -> 0 <= fst u < n /\ 0 <= snd u < n /\ c = f u) ->
  exists im', write_all im ucs = Ok im' /\ has_shape n n im' /\
    forall a b, (In (a, b) (map fst ucs) -> entry im' a b = Some (qz (f (a, b)))) /\
                (~ In (a, b) (map fst ucs) -> entry im' a b = entry im a b).
Proof.
  induction ucs as [|[u c] ucs IH]; intros im Him H.
  - exists im. split; [reflexivity|]. split; [assumption|]. intros a b. split; [intros []|reflexivity].
  - destruct (H u c (or_introl eq_refl)) as [H1 [H2 H3]].
    destruct (np_set2_ok n n im (fst u) (snd u) (qz c) Him H1 H2) as [im1 [E [Him1 Hent]]].
    destruct (IH im1 Him1) as [im2 [E2 [Him2 Hent2]]]; [intros; apply H; now right|].
    exists im2. cbn [write_all]. rewrite E. cbn [bind]. split; [assumption|]. split; [assumption|].
    intros a b. destruct (Hent2 a b) as [A B].
    assert (D : In (a, b) (map fst ucs) \/ ~ In (a, b) (map fst ucs)).
    { destruct (in_dec (fun x y => ltac:(destruct (pair_eqb_spec x y); [left|right]; assumption) : {x = y} + {x <> y}) (a, b) (map fst ucs)); tauto. }
    cbn [map fst]. split.
    + intros [Eu|Hin]; [|auto]. destruct D as [D|D]; [auto|]. rewrite (B D), Hent. subst u. cbn [fst snd]. rewrite !Z.eqb_refl. cbn [andb]. now rewrite H3.
    + intros N. rewrite B by (intros F; apply N; now right). rewrite Hent. destruct (Z.eqb_spec a (fst u)), (Z.eqb_spec b (snd u)); cbn [andb]; try reflexivity.
      exfalso. apply N. left. destruct u; cbn in *. now subst.
Qed.
Lemma sample_image_ok n coords : 0 <= n -> (forall u, In u coords -> 0 <= fst u < n /\ 0 <= snd u < n) ->
  exists im, sample_image (zeros n) coords = Ok im /\ has_shape n n im /\
    forall i j, 0 <= i < n -> 0 <= j < n -> entry im i j = Some (qz (count_pair (i, j) coords)).
Proof.
  intros Hn H. destruct (write_all_ok n (unique_counts coords) (fun u => count_pair u coords) (zeros n) (zeros_shape n Hn)) as [im [E [S Hent]]].
  { intros u c Hu. apply unique_counts_In in Hu. destruct Hu as [Hu ->]. destruct (H u Hu). auto. }
  exists im. split; [assumption|]. split; [assumption|]. intros i j Hi Hj. destruct (Hent i j) as [A B].
  destruct (filter (pair_eqb (i, j)) coords) as [|u l] eqn:Ef.
  - rewrite B.
    + unfold count_pair. rewrite Ef. rewrite zeros_entry by assumption. change (zlen (@nil (Z * Z))) with 0. now rewrite qz_0.
    + intros F. apply in_map_iff in F. destruct F as [[u c] [Eu Hu]]. cbn [fst] in Eu. subst u. apply unique_counts_In in Hu. destruct Hu as [Hu _].
      assert (F : In (i, j) (filter (pair_eqb (i, j)) coords)) by (apply filter_In; split; [assumption|]; now destruct (pair_eqb_spec (i, j) (i, j))).
      rewrite Ef in F. destruct F.
  - apply A. assert (F : In u (filter (pair_eqb (i, j)) coords)) by (rewrite Ef; now left). apply filter_In in F. destruct F as [F G].
    destruct (pair_eqb_spec (i, j) u) as [<-|]; [|discriminate]. destruct (unique_counts_ex coords (i, j) F) as [c Hc].
    apply in_map_iff. exists ((i, j), c). auto.
Qed.

(** *** clamping and cells *)
Lemma clip_clamp lo hi v : (lo <= hi)%Qc -> clip_q lo hi v = clamp lo hi v.
Proof. intros H. unfold clip_q, clamp, smax, smin. qdec; qneg; try reflexivity; qlra. Qed.
Lemma clamp_bounds lo hi v : (lo <= hi)%Qc -> (lo <= clamp lo hi v)%Qc /\ (clamp lo hi v <= hi)%Qc.
Proof. intros H. unfold clamp, smax, smin. qdec; qneg; split; qlra. Qed.
Lemma trunc_spec (t : Qc) : (0 <= t)%Qc -> (qz (trunc t) <= t)%Qc /\ (t < qz (trunc t + 1))%Qc /\ 0 <= trunc t.
Proof.
  intros H. unfold trunc. set (k := Z.quot (Qnum t) (Z.pos (Qden t))).
  assert (Hn : 0 <= Qnum t). { unfold Qcle, Qle in H. simpl in H. lia. }
  assert (K : Z.pos (Qden t) * k <= Qnum t < Z.pos (Qden t) * (k + 1) /\ 0 <= k).
  { subst k. rewrite Z.quot_div_nonneg by lia. pose proof (Z.mul_div_le (Qnum t) (Z.pos (Qden t)) ltac:(lia)).
    pose proof (Z.mul_succ_div_gt (Qnum t) (Z.pos (Qden t)) ltac:(lia)). pose proof (Z.div_pos (Qnum t) (Z.pos (Qden t))). lia. }
  clearbody k. repeat split.
  - unfold Qcle. rewrite this_qz. unfold Qle, inject_Z. cbn [Qnum Qden]. lia.
  - unfold Qclt. rewrite this_qz. unfold Qlt, inject_Z. cbn [Qnum Qden]. lia.
  - lia.
Qed.
Lemma cell_unique lo step (k k' : Z) v : (0 < step)%Qc -> in_cell lo step k v = true -> in_cell lo step k' v = true -> k = k'.
Proof.
  unfold in_cell. intros Hs H H'. apply andb_prop in H, H'. destruct H as [A B], H' as [A' B'].
  apply Qcleb_le in A, A'. apply Qcltb_lt in B, B'.
  assert (G : forall a b : Z, (lo + qz a * step <= v)%Qc -> (v < lo + qz (b + 1) * step)%Qc -> a <= b).
  { intros a b Ha Hb. destruct (Z.le_gt_cases a b); [assumption|]. assert (L : (qz (b + 1) <= qz a)%Qc) by (apply qz_le; lia).
    exfalso. qnra. }
  apply Z.le_antisymm; eapply G; eassumption.
Qed.
Lemma pixel_spec lo hi step n v : (0 < step)%Qc -> 2 <= n -> hi = (lo + qz (n - 1) * step)%Qc -> (lo <= v)%Qc -> (v <= hi)%Qc ->
  let k := trunc ((v - lo) / step)%Qc in 0 <= k < n /\ in_cell lo step k v = true.
Proof.
  intros Hs Hn Eh Hl Hh k. assert (Ht : (((v - lo) / step) * step = v - lo)%Qc) by (field; intros F; rewrite F in Hs; qlra).
  assert (H0 : (0 <= (v - lo) / step)%Qc).
  { destruct (Qc_lt_le_dec ((v - lo) / step)%Qc 0%Qc) as [C|C]; [|assumption]. exfalso. set (t := ((v - lo) / step)%Qc) in *. qnra. }
  destruct (trunc_spec _ H0) as [A [B C]]. fold k in A, B, C. set (t := ((v - lo) / step)%Qc) in *.
  assert (Ht2 : (t <= qz (n - 1))%Qc).
  { destruct (Qc_lt_le_dec (qz (n - 1)) t) as [D|D]; [|assumption]. exfalso. qnra. }
  assert (k < n). { assert (k <= n - 1); [|lia]. apply qz_le. qlra. }
  split; [lia|]. unfold in_cell. apply andb_true_intro. split; [apply Qcleb_le|apply Qcltb_lt]; qnra.
Qed.

Lemma heat_pixels_ok lo hi step n x : (0 < step)%Qc -> 2 <= n -> (lo <= hi)%Qc -> hi = (lo + qz (n - 1) * step)%Qc ->
  (forall u, In u (heat_pixels lo hi step x) -> 0 <= fst u < n /\ 0 <= snd u < n) /\
  forall i j, count_pair (i, j) (heat_pixels lo hi step x) = heat_count lo hi step i j x.
Proof.
  intros Hs Hn Hlh Eh. unfold heat_pixels. induction x as [|[b d] x [IH1 IH2]]; [split; [intros u []|reflexivity]|].
  cbn [map fst snd]. rewrite !clip_clamp by assumption. cbn [heat_count].
  destruct (clamp_bounds lo hi b Hlh) as [B1 B2]. destruct (clamp_bounds lo hi d Hlh) as [D1 D2].
  set (b' := clamp lo hi b) in *. set (d' := clamp lo hi d) in *. cbn [filter fst snd].
  destruct (pixel_spec lo hi step n b' Hs Hn Eh B1 B2) as [KB CB]. destruct (pixel_spec lo hi step n d' Hs Hn Eh D1 D2) as [KD CD]. cbv zeta in *.
  destruct (Qceqb_spec d' b') as [E|E]; cbn [negb].
  - split; [exact IH1|]. intros i j. destruct (Qceqb_spec b' d'); [|congruence]. cbn [negb andb]. exact (IH2 i j).
  - cbn [map fst snd]. split.
    + intros u [<-|Hu]; [cbn [fst snd]; split; assumption|]. exact (IH1 u Hu).
    + intros i j. destruct (Qceqb_spec b' d'); [congruence|]. cbn [negb andb]. specialize (IH2 i j). unfold count_pair in *. cbn [filter]. 
      destruct (pair_eqb_spec (i, j) (trunc ((b' - lo) / step)%Qc, trunc ((d' - lo) / step)%Qc)) as [P|P].
      * injection P as -> ->. rewrite CB, CD. cbn [andb]. rewrite zlen_cons, IH2. lia.
      * destruct (in_cell lo step i b') eqn:C1, (in_cell lo step j d') eqn:C2; cbn [andb]; try (rewrite IH2; lia).
        exfalso. apply P. f_equal; eapply cell_unique; eassumption.
Qed.

(** *** transposition, rotation *)
Lemma transposeZ_entry {A} n m (M : list (list A)) : 0 <= n -> 0 <= m -> has_shape n m M ->
  has_shape m n (transposeZ m M) /\ forall i j, 0 <= i < m -> 0 <= j < n -> entry (transposeZ m M) i j = entry M j i.
Proof.
  intros Hn Hm H. pose proof H as [L R]. unfold transposeZ. split; [split|].
  - now apply zlen_tabZ.
  - intros r Hr. apply In_tabZ in Hr. destruct Hr as [j [Hj <-]]. destruct (col_spec M j m R Hj) as [E _]. lia.
  - intros i j Hi Hj. unfold entry at 1. rewrite Znth_tabZ by assumption. destruct (col_spec M i m R Hi) as [_ E].
    destruct (has_shape_row _ _ _ j H Hj) as [r [Er Lr]]. destruct (Znth_ex r i) as [v Hv]; [lia|].
    rewrite (E j r v Er Hv). unfold entry. now rewrite Er.
Qed.
Lemma has_shape_rev {A} n m (M : list (list A)) : has_shape n m M ->
  has_shape n m (rev M) /\ forall i j, 0 <= i < n -> entry (rev M) i j = entry M (n - 1 - i) j.
Proof.
  intros [L R]. split; [split|].
  - now rewrite zlen_rev.
  - intros r Hr. apply R. now apply in_rev.
  - intros i j Hi. unfold entry. rewrite Znth_rev by lia. now rewrite L.
Qed.
Lemma rot90_entry {A} n (M : list (list A)) : 0 <= n -> has_shape n n M ->
  has_shape n n (rot90 n M) /\ forall r c, 0 <= r < n -> 0 <= c < n -> entry (rot90 n M) r c = entry M c (n - 1 - r).
Proof.
  intros Hn H. destruct (transposeZ_entry n n M Hn Hn H) as [S E]. destruct (has_shape_rev n n _ S) as [S' E']. unfold rot90.
  split; [assumption|]. intros r c Hr Hc. rewrite E' by assumption. apply E; lia.
Qed.
Lemma map_map_entry {A B} (f : A -> B) n m M : has_shape n m M ->
  has_shape n m (map (map f) M) /\ forall i j, entry (map (map f) M) i j = option_map f (entry M i j).
Proof.
  intros [L R]. split; [split|].
  - now rewrite zlen_map.
  - intros r Hr. apply in_map_iff in Hr. destruct Hr as [r' [<- Hr']]. rewrite zlen_map. auto.
  - intros i j. unfold entry. rewrite Znth_map. destruct (Znth M i) as [r|]; [|reflexivity]. cbn [option_map]. apply Znth_map.
Qed.
Lemma zlen_combine {A B} (a : list A) (b : list B) : zlen a = zlen b -> zlen (combine a b) = zlen a.
Proof. unfold zlen. rewrite combine_length. lia. Qed.
Lemma image_map2_entry f n m A B : has_shape n m A -> has_shape n m B ->
  has_shape n m (image_map2 f A B) /\
  forall i j a b, entry A i j = Some a -> entry B i j = Some b -> entry (image_map2 f A B) i j = Some (f a b).
Proof.
  intros [LA RA] [LB RB]. split; [split|].
  - unfold image_map2. rewrite zlen_map, zlen_combine by lia. assumption.
  - intros r Hr. apply in_map_iff in Hr. destruct Hr as [[ra rb] [<- Hr]]. cbn [fst snd]. rewrite zlen_map.
    pose proof (in_combine_l _ _ _ _ Hr) as H1. pose proof (in_combine_r _ _ _ _ Hr) as H2.
    rewrite zlen_combine; rewrite (RA _ H1); [reflexivity|]. now rewrite (RB _ H2).
  - intros i j a b Ha Hb. unfold entry, image_map2 in *. rewrite Znth_map.
    destruct (Znth A i) as [ra|] eqn:EA; [|discriminate]. destruct (Znth B i) as [rb|] eqn:EB; [|discriminate].
    rewrite (Znth_combine A B i ra rb EA EB). cbn [option_map fst snd]. rewrite Znth_map. rewrite (Znth_combine _ _ _ _ _ Ha Hb). reflexivity.
Qed.

Lemma is_grid_facts lo hi n s step : 2 <= n -> is_grid lo hi n s (Fin step) ->
  zlen s = n /\ py_get s 0 = Ok lo /\ py_get s (-1) = Ok hi /\ hi = (lo + qz (n - 1) * step)%Qc /\ step = ((hi - lo) / qz (n - 1))%Qc.
Proof.
  intros Hn [L [H0 [_ H]]]. destruct (H ltac:(lia)) as [E [Hl Hi]]. injection E as E.
  assert (N : qz (n - 1) <> 0%Qc) by (intros F; rewrite <- qz_0 in F; apply qz_inj in F; lia).
  split; [assumption|]. split; [now apply py_get_in|]. split.
  - unfold py_get. rewrite L. change (-1 <? 0) with true. cbv iota. replace (-1 + n) with (n - 1) by lia. now rewrite Hl.
  - split; [|assumption]. rewrite E. field. exact N.
Qed.
Lemma step_sign lo hi n step : 2 <= n -> (lo <= hi)%Qc -> step = ((hi - lo) / qz (n - 1))%Qc -> (0 <= step)%Qc.
Proof.
  intros Hn H E. assert (P : (0 < qz (n - 1))%Qc) by (rewrite <- qz_0; apply qz_lt; lia).
  assert (Ht : (step * qz (n - 1) = hi - lo)%Qc) by (rewrite E; field; intros F; rewrite F in P; qlra).
  destruct (Qc_lt_le_dec step 0%Qc) as [C|C]; [|assumption]. exfalso. qnra.
Qed.

Lemma heat_ok gauss lo hi n s step sigma x : keeps_shape gauss -> 2 <= n -> (lo <= hi)%Qc ->
  is_grid lo hi n s (Fin step) ->
  exists H, heat gauss s step sigma x = Ok H /\ is_heat gauss lo hi n step sigma x H /\
    forall r c, 0 <= r < n -> 0 <= c < n -> exists v, entry H r c = Some v /\ entry H (n - 1 - c) (n - 1 - r) = Some (- v)%Qc.
Proof.
  intros HG Hn Hlh Hg. destruct (is_grid_facts _ _ _ _ _ Hn Hg) as [L [G0 [G1 [Eh Es]]]]. pose proof (step_sign _ _ _ _ Hn Hlh Es) as Hs0.
  unfold heat. rewrite L, G0, G1. cbn [bind]. destruct (Qceqb_spec step 0%Qc) as [E0|E0].
  - exists (zeros n). split; [reflexivity|]. split; [split; [apply zeros_shape; lia|split]|].
    + intros _ r c Hr Hc. now apply zeros_entry.
    + intros F. exfalso. rewrite E0 in F. qlra.
    + intros r c Hr Hc. exists 0%Qc. rewrite !zeros_entry by lia. split; [reflexivity|]. f_equal.
  - assert (Hs : (0 < step)%Qc) by (apply Qcle_lt_or_eq in Hs0; destruct Hs0 as [|F]; [assumption|congruence]).
    destruct (heat_pixels_ok lo hi step n x Hs Hn Hlh Eh) as [P1 P2].
    destruct (sample_image_ok n (heat_pixels lo hi step x) ltac:(lia) P1) as [raster [-> [S R]]]. cbn [bind].
    set (G := gauss (Qcmin (sigma / step) (qz (10 ^ 5 * n)))%Qc raster).
    assert (SG : has_shape n n G) by now apply HG.
    destruct (transposeZ_entry n n G ltac:(lia) ltac:(lia) SG) as [ST ET].
    destruct (image_map2_entry Qcminus n n G (transposeZ n G) SG ST) as [SM EM].
    destruct (map_map_entry (fun v => (v / (step * step))%Qc) n n _ SM) as [SD ED].
    destruct (rot90_entry n _ ltac:(lia) SD) as [SR ER].
    assert (F : forall r c, 0 <= r < n -> 0 <= c < n -> exists u v, entry G c (n - 1 - r) = Some u /\ entry G (n - 1 - r) c = Some v /\
        entry (rot90 n (map (map (fun v => (v / (step * step))%Qc)) (image_map2 Qcminus G (transposeZ n G)))) r c = Some ((u - v) / (step * step))%Qc).
    { intros r c Hr Hc. destruct (entry_ex n n G c (n - 1 - r) SG) as [u Hu]; try lia. destruct (entry_ex n n G (n - 1 - r) c SG) as [v Hv]; try lia.
      exists u, v. split; [assumption|]. split; [assumption|]. rewrite ER by lia. rewrite ED. rewrite (EM c (n - 1 - r) u v Hu); [reflexivity|].
      rewrite ET by lia. assumption. }
    eexists. split; [reflexivity|]. split; [split; [exact SR|split]|].
    + intros; contradiction.
    + intros _. exists raster. split; [assumption|]. split; [intros i j Hi Hj; rewrite R by assumption; now rewrite P2|]. exact F.
    + intros r c Hr Hc. destruct (F r c Hr Hc) as [u [v [A [B C]]]]. destruct (F (n - 1 - c) (n - 1 - r) ltac:(lia) ltac:(lia)) as [u' [v' [A' [B' C']]]].
      replace (n - 1 - (n - 1 - c)) with c in * by lia. eexists. split; [exact C|]. rewrite C'. f_equal.
      assert (u' = v) by congruence. assert (v' = u) by congruence. subst. field. exact E0.
Qed.

Lemma heat_count_perm lo hi step i j x y : Permutation x y -> heat_count lo hi step i j x = heat_count lo hi step i j y.
Proof. induction 1 as [|[b d] l l' P IH|[b d] [b' d'] l|]; cbn [heat_count]; cbv zeta; lia. Qed.
Lemma heat_count_off lo hi step i j x : heat_count lo hi step i j x = heat_count lo hi step i j (off_diagonal x).
Proof.
  induction x as [|[b d] x IH]; [reflexivity|]. unfold off_diagonal. cbn [filter fst snd]. fold (off_diagonal x).
  destruct (Qceqb_spec b d) as [->|E]; cbn [negb heat_count]; cbv zeta; rewrite IH; [|reflexivity].
  destruct (Qceqb_spec (clamp lo hi d) (clamp lo hi d)); [|congruence]. reflexivity.
Qed.
Lemma heat_count_same lo hi step i j x y : same_off_diagonal x y -> heat_count lo hi step i j x = heat_count lo hi step i j y.
Proof. intros H. rewrite (heat_count_off lo hi step i j x), (heat_count_off lo hi step i j y). now apply heat_count_perm. Qed.
Lemma is_heat_same gauss lo hi n step sigma x y H H' : 0 <= n -> (0 <= step)%Qc -> same_off_diagonal x y ->
  is_heat gauss lo hi n step sigma x H -> is_heat gauss lo hi n step sigma y H' -> H = H'.
Proof.
  intros Hn Hs E [S [Z0 P]] [S' [Z0' P']]. apply (entry_ext n n); try assumption. intros r c Hr Hc.
  apply Qcle_lt_or_eq in Hs. destruct Hs as [Hs|Hs].
  - destruct (P Hs) as [R [SR [ER F]]]. destruct (P' Hs) as [R' [SR' [ER' F']]].
    assert (R = R'). { apply (entry_ext n n); try assumption. intros i j Hi Hj. rewrite ER, ER' by assumption. do 2 f_equal. now apply heat_count_same. }
    subst R'. destruct (F r c Hr Hc) as [u [v [A [B C]]]]. destruct (F' r c Hr Hc) as [u' [v' [A' [B' C']]]]. rewrite C, C'. congruence.
  - rewrite Z0, Z0' by auto. reflexivity.
Qed.

(** *** persistence images *)
Lemma pi_pixels_ok lo0 hi0 step0 lo1 hi1 step1 n x : (0 < step0)%Qc -> (0 < step1)%Qc -> 2 <= n -> (lo0 <= hi0)%Qc -> (lo1 <= hi1)%Qc ->
  hi0 = (lo0 + qz (n - 1) * step0)%Qc -> hi1 = (lo1 + qz (n - 1) * step1)%Qc ->
  (forall u, In u (pi_pixels (lo0, lo1) (hi0, hi1) (step0, step1) x) -> 0 <= fst u < n /\ 0 <= snd u < n) /\
  forall i j, count_pair (i, j) (pi_pixels (lo0, lo1) (hi0, hi1) (step0, step1) x) = pi_count lo0 hi0 step0 lo1 hi1 step1 i j x.
Proof.
  intros Hs0 Hs1 Hn Hlh0 Hlh1 Eh0 Eh1. unfold pi_pixels. cbn [fst snd]. induction x as [|[b d] x [IH1 IH2]]; [split; [intros u []|reflexivity]|].
  cbn [map fst snd]. rewrite !clip_clamp by assumption. cbn [pi_count].
  destruct (clamp_bounds lo0 hi0 b Hlh0) as [B1 B2]. destruct (clamp_bounds lo1 hi1 (d - b)%Qc Hlh1) as [D1 D2].
  set (b' := clamp lo0 hi0 b) in *. set (d' := clamp lo1 hi1 (d - b)%Qc) in *. cbn [filter fst snd].
  destruct (pixel_spec lo0 hi0 step0 n b' Hs0 Hn Eh0 B1 B2) as [KB CB]. destruct (pixel_spec lo1 hi1 step1 n d' Hs1 Hn Eh1 D1 D2) as [KD CD]. cbv zeta in *.
  destruct (Qceqb_spec d' 0%Qc) as [E|E]; cbn [negb andb].
  - split; [exact IH1|]. intros i j. exact (IH2 i j).
  - cbn [map fst snd]. split.
    + intros u [<-|Hu]; [cbn [fst snd]; split; assumption|]. exact (IH1 u Hu).
    + intros i j. specialize (IH2 i j). unfold count_pair in *. cbn [filter].
      destruct (pair_eqb_spec (i, j) (trunc ((b' - lo0) / step0)%Qc, trunc ((d' - lo1) / step1)%Qc)) as [P|P].
      * injection P as -> ->. rewrite CB, CD. cbn [andb]. rewrite zlen_cons, IH2. lia.
      * destruct (in_cell lo0 step0 i b') eqn:C1, (in_cell lo1 step1 j d') eqn:C2; cbn [andb]; try (rewrite IH2; lia).
        exfalso. apply P. f_equal; [eapply (cell_unique lo0 step0)|eapply (cell_unique lo1 step1)]; eassumption.
Qed.

Lemma persistence_image_ok gauss lo0 hi0 lo1 hi1 n s0 s1 step0 step1 sigma weights x : keeps_shape gauss -> 2 <= n ->
  (lo0 <= hi0)%Qc -> (lo1 <= hi1)%Qc ->
  is_grid lo0 hi0 n s0 (Fin step0) -> is_grid lo1 hi1 n s1 (Fin step1) -> zlen weights = n ->
  exists H, persistence_image gauss (combine s0 s1) (step0, step1) sigma weights x = Ok H /\
    is_persistence_image gauss lo0 hi0 lo1 hi1 n step0 step1 sigma weights x H.
Proof.
  intros HG Hn Hlh0 Hlh1 Hg0 Hg1 HW.
  destruct (is_grid_facts _ _ _ _ _ Hn Hg0) as [L0 [G00 [G01 [Eh0 Es0]]]]. pose proof (step_sign _ _ _ _ Hn Hlh0 Es0) as Hs0.
  destruct (is_grid_facts _ _ _ _ _ Hn Hg1) as [L1 [G10 [G11 [Eh1 Es1]]]]. pose proof (step_sign _ _ _ _ Hn Hlh1 Es1) as Hs1.
  unfold persistence_image. rewrite zlen_combine by lia. rewrite L0. cbn [fst snd].
  assert (C0 : py_get (combine s0 s1) 0 = Ok (lo0, lo1)).
  { apply py_get_in; [lia|]. apply Znth_combine; [apply Hg0|apply Hg1]. }
  assert (C1 : py_get (combine s0 s1) (-1) = Ok (hi0, hi1)).
  { unfold py_get. rewrite zlen_combine, L0 by lia. change (-1 <? 0) with true. cbv iota. rewrite (Znth_combine s0 s1 (-1 + n) hi0 hi1); [reflexivity| |].
    - destruct Hg0 as [_ [_ [_ H]]]. destruct (H ltac:(lia)) as [_ [E _]]. rewrite <- E. f_equal. lia.
    - destruct Hg1 as [_ [_ [_ H]]]. destruct (H ltac:(lia)) as [_ [E _]]. rewrite <- E. f_equal. lia. }
  rewrite C0, C1. cbn [bind]. destruct (Qceqb_spec step0 0%Qc) as [E0|E0]; cbn [orb]; [|destruct (Qceqb_spec step1 0%Qc) as [E1|E1]; cbn [orb]].
  1,2: exists (zeros n); split; [reflexivity|]; split; [apply zeros_shape; lia|]; split; [intros; now apply zeros_entry|];
    intros F F'; exfalso; (rewrite E0 in F || rewrite E1 in F'); qlra.
  assert (Hp0 : (0 < step0)%Qc) by (apply Qcle_lt_or_eq in Hs0; destruct Hs0 as [|F]; [assumption|congruence]).
  assert (Hp1 : (0 < step1)%Qc) by (apply Qcle_lt_or_eq in Hs1; destruct Hs1 as [|F]; [assumption|congruence]).
  destruct (pi_pixels_ok lo0 hi0 step0 lo1 hi1 step1 n x Hp0 Hp1 Hn Hlh0 Hlh1 Eh0 Eh1) as [P1 P2].
  destruct (sample_image_ok n (pi_pixels (lo0, lo1) (hi0, hi1) (step0, step1) x) ltac:(lia) P1) as [raster [-> [S R]]]. cbn [bind].
  set (W := map (fun r => map (fun vw => (fst vw * snd vw)%Qc) (combine r weights)) raster).
  assert (SW : has_shape n n W).
  { destruct S as [Sl Sr]. split; [unfold W; now rewrite zlen_map|]. intros r Hr. apply in_map_iff in Hr. destruct Hr as [r' [<- Hr']].
    rewrite zlen_map, zlen_combine; rewrite (Sr _ Hr'); [reflexivity|now symmetry]. }
  assert (EW : forall i j w, 0 <= i < n -> 0 <= j < n -> Znth weights j = Some w ->
     entry W i j = Some (qz (pi_count lo0 hi0 step0 lo1 hi1 step1 i j x) * w)%Qc).
  { intros i j w Hi Hj Hw. specialize (R i j Hi Hj). rewrite P2 in R. unfold entry in *. unfold W. rewrite Znth_map.
    destruct (Znth raster i) as [r|]; [|discriminate]. cbn [option_map]. rewrite Znth_map, (Znth_combine r weights j _ _ R Hw). reflexivity. }
  set (G := gauss (sigma / step0, sigma / step1)%Qc W). assert (SG : has_shape n n G) by now apply HG.
  destruct (rot90_entry n G ltac:(lia) SG) as [SR ER]. destruct (map_map_entry (fun v => (v / (step0 * step1))%Qc) n n _ SR) as [SD ED].
  eexists. split; [reflexivity|]. split; [exact SD|]. split; [intros [F|F]; contradiction|]. intros _ _. exists W. split; [assumption|]. split; [assumption|].
  intros r c Hr Hc. destruct (entry_ex n n G c (n - 1 - r) SG) as [u Hu]; try lia. exists u. split; [exact Hu|].
  rewrite ED, ER by lia. now rewrite Hu.
Qed.
