(** C67: mutual information of a series and its delayed copy, from the values of the series. *)
From Coq Require Import Reals Lra.
From Verif Require Import Np NpFacts Fl RNp RNormFacts MetricSpec MetricProofs2 FeatProofs FilterThms TSModel TSProofs TakensModel TakensSpec LocalThms2 TakensThms TakensThms2 TakensThms3.
From Verif Require NdFacts.
Open Scope Z_scope.

Lemma py_sub_from {A} (l : list A) a : 0 <= a ->
  zlen (py_sub (Some a) None l) = Z.max 0 (zlen l - a) /\ forall i, 0 <= i < zlen l - a -> Znth (py_sub (Some a) None l) i = Znth l (a + i).
Proof.
  intros Ha. pose proof (zlen_nonneg l) as Hl. destruct (py_slice_spec l (Some a) None 1 ltac:(lia)) as [_ [H1 H2]]. cbv zeta in H1, H2.
  assert (E1 : slice_start 1 (zlen l) (Some a) = Z.min a (zlen l)) by (unfold slice_start, clip_index; destruct (Z.ltb_spec a 0); simpl; lia).
  assert (E2 : slice_stop 1 (zlen l) None = zlen l) by reflexivity.
  assert (E3 : slice_count 1 (Z.min a (zlen l)) (zlen l) = Z.max 0 (zlen l - a)).
  { unfold slice_count. simpl. destruct (Z.ltb_spec (Z.min a (zlen l)) (zlen l)); [rewrite Z.div_1_r|]; lia. }
  rewrite E1, E2, E3 in *. unfold py_sub. split; [assumption|]. intros i Hi. rewrite H2 by lia. f_equal. lia.
Qed.
Lemma delayed_ok X t : 1 <= t -> delayed X t (py_sub None (Some (- t)) X) (py_sub (Some t) None X).
Proof.
  intros Ht. destruct (py_sub_neg X 0 t ltac:(lia) ltac:(lia)) as [L1 H1]. rewrite <- py_sub_None in L1, H1. destruct (py_sub_from X t ltac:(lia)) as [L2 H2].
  split; [rewrite L1; f_equal; lia|]. split; [assumption|]. intros k Hk. rewrite H1, H2 by lia. split; f_equal; lia.
Qed.
Lemma delayed_unique X t A B A' B' : delayed X t A B -> delayed X t A' B' -> A = A' /\ B = B'.
Proof.
  intros [LA [LB H]] [LA' [LB' H']]. split; (apply Znth_ext; [lia|]; intros k Hk).
  - rewrite (proj1 (H k ltac:(lia))). symmetry. apply H'. lia.
  - rewrite (proj2 (H k ltac:(lia))). symmetry. apply H'. lia.
Qed.

Definition cell (A B : list R) (m i j : Z) : Z :=
  zlen (filter (fun ab => (bin_of (outer_edges A) m (fst ab) =? i) && (bin_of (outer_edges B) m (snd ab) =? j)) (combine A B)).
Lemma cell_counts A B m i j lo hi lo' hi' : 1 <= m -> zlen A = zlen B -> is_interval A lo hi -> is_interval B lo' hi' ->
  counts (fun k => exists a b, Znth A k = Some a /\ Znth B k = Some b /\ in_bin lo hi m i a /\ in_bin lo' hi' m j b) (zlen A) (cell A B m i j).
Proof.
  intros M L IA IB. unfold cell. set (f := fun ab : R * R => _ && _). pose proof (counts_filter f (combine A B)) as C. rewrite NdFacts.zlen_combine in C by assumption. revert C. apply counts_ext. intros k Hk.
  destruct (Znth_ex A k Hk) as [a Ha]. destruct (Znth_ex B k ltac:(lia)) as [b Hb]. rewrite (Znth_combine _ _ _ _ _ Ha Hb).
  assert (NA : A <> []) by (intros ->; cbn in Hk; lia). assert (NB : B <> []) by (intros ->; rewrite L in Hk; cbn in Hk; lia).
  destruct (is_interval_unique _ _ _ _ _ IA (outer_edges_spec A NA)) as [Elo Ehi]. destruct (is_interval_unique _ _ _ _ _ IB (outer_edges_spec B NB)) as [Elo' Ehi'].
  destruct (is_interval_lt _ _ _ IA) as [LA RA]. destruct (is_interval_lt _ _ _ IB) as [LB RB]. pose proof (RA a (Znth_In _ _ _ Ha)) as Ra. pose proof (RB b (Znth_In _ _ _ Hb)) as Rb.
  assert (EA : outer_edges A = (lo, hi)) by (rewrite (surjective_pairing (outer_edges A)); now subst). assert (EB : outer_edges B = (lo', hi')) by (rewrite (surjective_pairing (outer_edges B)); now subst).
  pose proof (bin_of_spec lo hi m a LA M Ra) as Ba. pose proof (bin_of_spec lo' hi' m b LB M Rb) as Bb. unfold f. rewrite EA, EB. split.
  - intros [x [Ex Hx]]. injection Ex as <-. cbn [fst snd] in Hx. apply andb_prop in Hx. destruct Hx as [X1 X2]. apply Z.eqb_eq in X1, X2. subst i j. exists a, b. split; [assumption|]. split; [assumption|]. split; assumption.
  - intros (a2 & b2 & Ea & Eb & Ia & Ib). rewrite Ha in Ea. injection Ea as <-. rewrite Hb in Eb. injection Eb as <-. eexists. split; [reflexivity|]. cbn [fst snd]. apply andb_true_intro.
    split; apply Z.eqb_eq; [eapply (in_bin_unique lo hi); eauto; lra|eapply (in_bin_unique lo' hi'); eauto; lra].
Qed.
Lemma histogram2d_cell A B m : histogram2d A B m = tabZ m (fun i => tabZ m (cell A B m i)).
Proof. reflexivity. Qed.
Lemma mi_cell X t m : 1 <= m -> mutual_information X t m = information m (fun i j => IZR (cell (py_sub None (Some (- t)) X) (py_sub (Some t) None X) m i j)).
Proof. intros M. unfold mutual_information. rewrite histogram2d_cell. apply score_table; [assumption|]. intros. apply zlen_nonneg. Qed.

(** The score is the mutual information of the binned series and the binned delayed series. *)
Theorem mutual_information_spec X t m A B c : 1 <= t -> 1 <= m -> delayed X t A B -> joint A B m c ->
  mutual_information X t m = information m (fun i j => IZR (c i j)).
Proof.
  intros Ht M D (lo & hi & lo' & hi' & IA & IB & C). rewrite mi_cell by assumption. destruct (delayed_unique _ _ _ _ _ _ D (delayed_ok X t Ht)) as [<- <-]. apply information_ext. intros i j Hi Hj. f_equal.
  destruct D as [LA [LB _]]. eapply counts_unique; [|now apply C]. now apply cell_counts; [|lia|..].
Qed.
(** The counts exist and are the counts of n - t positions. *)
Theorem mutual_information_joint X t m : 1 <= t < zlen X -> 1 <= m ->
  exists A B c, delayed X t A B /\ joint A B m c /\ Sum m (fun i => Sum m (fun j => IZR (c i j))) = IZR (zlen X - t).
Proof.
  intros Ht M. exists (py_sub None (Some (- t)) X), (py_sub (Some t) None X), (cell (py_sub None (Some (- t)) X) (py_sub (Some t) None X) m). pose proof (delayed_ok X t ltac:(lia)) as D. split; [assumption|].
  destruct D as [LA [LB _]]. set (A := py_sub None (Some (- t)) X) in *. set (B := py_sub (Some t) None X) in *.
  assert (NA : A <> []) by (intros E; rewrite E in LA; change (zlen (@nil R)) with 0 in LA; lia). assert (NB : B <> []) by (intros E; rewrite E in LB; change (zlen (@nil R)) with 0 in LB; lia).
  split.
  - exists (fst (outer_edges A)), (snd (outer_edges A)), (fst (outer_edges B)), (snd (outer_edges B)). split; [now apply outer_edges_spec|]. split; [now apply outer_edges_spec|]. intros i j _ _. apply cell_counts; [assumption|lia|now apply outer_edges_spec|now apply outer_edges_spec].
  - replace (zlen X - t) with (zlen (combine A B)) by (rewrite NdFacts.zlen_combine; lia). unfold cell.
    set (bx := bin_of (outer_edges A) m). set (by_ := bin_of (outer_edges B) m).
    assert (G : forall ab, In ab (combine A B) -> 0 <= bx (fst ab) < m /\ 0 <= by_ (snd ab) < m).
    { intros [a b] I. destruct (is_interval_lt _ _ _ (outer_edges_spec A NA)) as [PA RA]. destruct (is_interval_lt _ _ _ (outer_edges_spec B NB)) as [PB RB]. unfold bx, by_. cbn [fst snd].
      rewrite (surjective_pairing (outer_edges A)), (surjective_pairing (outer_edges B)). split; eapply bin_of_spec; eauto; [apply RA; eapply in_combine_l; eauto|apply RB; eapply in_combine_r; eauto]. }
    clearbody bx by_. induction (combine A B) as [|ab l IH].
    + apply Sum_0. intros i Hi. apply Sum_0. intros j Hj. reflexivity.
    + destruct (G ab (or_introl eq_refl)) as [G1 G2]. rewrite zlen_cons, plus_IZR, <- IH by (intros; apply G; now right).
      assert (D1 : forall n k, 0 <= k < n -> Sum n (fun i => if i =? k then 1 else 0)%R = 1%R).
      { intros n k Hk. unfold Sum. change total with rsum. assert (In k (arange n)) as I by now apply In_arange. pose proof (NoDup_arange n) as ND. revert I ND. generalize (arange n). intros q. induction q as [|y q IHq]; [easy|]. intros I ND.
        inversion ND as [|? ? NI ND']; subst. cbn [map]. rewrite rsum_cons. destruct (Z.eqb_spec y k) as [->|Ne].
        - rewrite (map_ext_in _ (fun _ => 0%R)); [change rsum with total; rewrite total_const; ring|]. intros z Hz. destruct (Z.eqb_spec z k) as [->|]; [contradiction|reflexivity].
        - destruct I as [->|I]; [congruence|]. rewrite IHq by assumption. ring. }
      assert (S : forall i j, IZR (zlen (filter (fun ab => (bx (fst ab) =? i) && (by_ (snd ab) =? j)) (ab :: l))) = (IZR (zlen (filter (fun ab => (bx (fst ab) =? i) && (by_ (snd ab) =? j)) l)) + (if i =? bx (fst ab) then 1 else 0) * (if j =? by_ (snd ab) then 1 else 0))%R).
      { intros i j. cbn [filter]. rewrite (Z.eqb_sym i), (Z.eqb_sym j). destruct (bx (fst ab) =? i), (by_ (snd ab) =? j); cbn [andb]; rewrite ?zlen_cons, ?plus_IZR; ring. }
      rewrite (Sum_ext m _ (fun i => Sum m (fun j => IZR (zlen (filter (fun ab => (bx (fst ab) =? i) && (by_ (snd ab) =? j)) l))) + (if i =? bx (fst ab) then 1 else 0))%R).
      * rewrite Sum_add, D1 by assumption. reflexivity.
      * intros i Hi. rewrite (Sum_ext m _ _ (fun j _ => S i j)), Sum_add, Sum_scal, D1 by assumption. ring.
Qed.

(** Never negative. *)
Theorem mutual_information_nonneg X t m : 1 <= m -> (0 <= mutual_information X t m)%R.
Proof. intros M. rewrite mi_cell by assumption. apply information_nonneg. intros. apply (IZR_le 0). apply zlen_nonneg. Qed.
(** Zero iff the binned values are independent. *)
Theorem mutual_information_zero X t m A B c : 1 <= t -> 1 <= m -> delayed X t A B -> joint A B m c ->
  (mutual_information X t m = 0%R <-> forall i j, 0 <= i < m -> 0 <= j < m ->
     (IZR (c i j) * IZR (zlen X - t) = Sum m (fun j' => IZR (c i j')) * Sum m (fun i' => IZR (c i' j)))%R).
Proof.
  intros Ht M D J. rewrite (mutual_information_spec X t m A B c Ht M D J).
  assert (C : forall i j, 0 <= i < m -> 0 <= j < m -> (0 <= IZR (c i j))%R).
  { intros i j Hi Hj. destruct J as (lo & hi & lo' & hi' & _ & _ & J). apply (IZR_le 0). now apply (counts_range _ _ _ (J i j Hi Hj)). }
  rewrite (information_zero m (fun i j => IZR (c i j)) C). assert (t < zlen X).
  { destruct J as (lo & hi & lo' & hi' & (a & _ & Ia & _) & _). destruct D as [LA _]. destruct A as [|x A]; [easy|]. rewrite zlen_cons in LA. pose proof (zlen_nonneg A). lia. }
  destruct (mutual_information_joint X t m ltac:(lia) M) as (A' & B' & c' & D' & J' & S). destruct (delayed_unique _ _ _ _ _ _ D D') as [<- <-].
  rewrite <- S. rewrite (Sum_ext m (fun i => Sum m (fun j => IZR (c' i j))) (fun i => Sum m (fun j => IZR (c i j)))); [reflexivity|].
  intros i Hi. apply Sum_ext. intros j Hj. f_equal. destruct J as (lo & hi & lo' & hi' & IA & IB & J). destruct J' as (lo2 & hi2 & lo2' & hi2' & IA' & IB' & J').
  destruct (is_interval_unique _ _ _ _ _ IA IA') as [<- <-]. destruct (is_interval_unique _ _ _ _ _ IB IB') as [<- <-]. eapply counts_unique; [now apply J'|now apply J].
Qed.

(** Zero if the first part of the series is constant, or if there is at most one pair of values. *)
Lemma one_row m (c : Z -> Z -> R) i0 : (forall i j, 0 <= i < m -> 0 <= j < m -> (0 <= c i j)%R) -> 0 <= i0 < m -> (forall i j, 0 <= i < m -> 0 <= j < m -> i <> i0 -> c i j = 0%R) -> information m c = 0%R.
Proof.
  intros C B H. apply information_zero; [assumption|]. intros i j Hi Hj. destruct (Z.eq_dec i i0) as [->|N].
  - assert (S : forall f, (forall i, 0 <= i < m -> i <> i0 -> f i = 0%R) -> Sum m f = f i0).
    { intros f F. unfold Sum. change total with rsum. assert (I : In i0 (arange m)) by now apply In_arange. pose proof (NoDup_arange m) as ND. assert (G : forall k, In k (arange m) -> k <> i0 -> f k = 0%R) by (intros k Hk; apply F; now apply In_arange). revert I ND G. generalize (arange m). intros q. induction q as [|y q IHq]; [easy|]. intros I ND G.
      inversion ND as [|? ? NI ND']; subst. cbn [map]. rewrite rsum_cons. destruct (Z.eq_dec y i0) as [->|Ne].
      - rewrite (map_ext_in _ (fun _ => 0%R)); [change rsum with total; rewrite total_const; ring|]. intros z Hz. apply G; [now right|congruence].
      - destruct I as [->|I]; [congruence|]. rewrite (IHq I ND' (fun k Hk => G k (or_intror Hk))). rewrite (G y) by (try assumption; now left). ring. }
    rewrite (S (fun i => Sum m (c i))); [|intros k Hk Nk; apply Sum_0; intros; now apply H]. rewrite (S (fun i' => c i' j)); [ring|]. intros k Hk Nk. now apply H.
  - rewrite (H i j Hi Hj N), (Sum_0 m (c i)); [ring|]. intros k Hk. now apply H.
Qed.
Lemma information_all0 m c : (forall i j, 0 <= i < m -> 0 <= j < m -> c i j = 0%R) -> information m c = 0%R.
Proof. intros H. unfold information. apply Sum_0. intros i Hi. apply Sum_0. intros j Hj. rewrite H by assumption. now destruct (Req_EM_T 0 0). Qed.
Lemma filter_none (bx by_ : R -> Z) i j A : (forall a, In a A -> (bx a =? i) = false) -> forall B, filter (fun ab => (bx (fst ab) =? i) && (by_ (snd ab) =? j)) (combine A B) = [].
Proof.
  induction A as [|a A IH]; [reflexivity|]. intros G [|b B]; [reflexivity|]. cbn [combine filter fst]. rewrite (G a (or_introl eq_refl)). cbn [andb]. apply IH. intros; apply G; now right.
Qed.
Theorem mutual_information_constant X t m v : 1 <= t -> 1 <= m -> (forall k x, 0 <= k < zlen X - t -> Znth X k = Some x -> x = v) ->
  mutual_information X t m = 0%R.
Proof.
  intros Ht M H. rewrite mi_cell by assumption. pose proof (delayed_ok X t ltac:(lia)) as [LA [LB D]]. set (A := py_sub None (Some (- t)) X) in *. set (B := py_sub (Some t) None X) in *.
  assert (CA : forall a, In a A -> a = v). { intros a Ha. apply In_Znth in Ha. destruct Ha as [k [Hk Ha]]. rewrite (proj1 (D k ltac:(lia))) in Ha. eapply H; [|eassumption]. lia. }
  destruct A as [|a A'] eqn:EA.
  - apply information_all0. intros i j _ _. reflexivity.
  - rewrite <- EA in *. assert (NA : A <> []) by (rewrite EA; easy). destruct (is_interval_lt _ _ _ (outer_edges_spec A NA)) as [PA RA].
    assert (IB : 0 <= bin_of (outer_edges A) m v < m).
    { rewrite (surjective_pairing (outer_edges A)). apply (bin_of_spec _ _ m v PA M). apply RA. replace v with a; [rewrite EA; now left|]. apply CA. rewrite EA. now left. }
    apply (one_row m _ (bin_of (outer_edges A) m v)); [intros; apply (IZR_le 0), zlen_nonneg|assumption|]. intros i j Hi Hj N. unfold cell.
    rewrite filter_none; [reflexivity|]. intros a' Ha'. rewrite (CA a' Ha'). apply Z.eqb_neq. congruence.
Qed.
Theorem mutual_information_degenerate X t m : 1 <= t -> 1 <= m -> zlen X <= t + 1 -> mutual_information X t m = 0%R.
Proof.
  intros Ht M L. destruct (Znth X 0) as [v|] eqn:E.
  - apply (mutual_information_constant X t m v); [assumption..|]. intros k x Hk Hx. replace k with 0 in Hx by lia. congruence.
  - apply (mutual_information_constant X t m 0%R); [assumption..|]. intros k x Hk Hx. replace k with 0 in Hx by lia. congruence.
Qed.

(** ** Invariance *)
Lemma nth_error_rev_ex {A} (l : list A) k : (k < length l)%nat -> nth_error (rev l) k = nth_error l (length l - 1 - k).
Proof.
  intros H. destruct l as [|d l']; [cbn in H; lia|]. set (l := d :: l') in *. rewrite (nth_error_nth' (rev l) d) by now rewrite rev_length. rewrite (nth_error_nth' l d) by lia. rewrite rev_nth by assumption. do 2 f_equal. lia.
Qed.
Lemma is_interval_affine A s b lo hi lo' hi' m i x : (0 < s)%R -> 1 <= m -> is_interval A lo hi -> is_interval (map (fun x => s * x + b)%R A) lo' hi' -> In x A ->
  (in_bin lo hi m i x <-> in_bin lo' hi' m i (s * x + b)).
Proof.
  intros Hs M (a & z & Ia & Iz & H & N & E) (a' & z' & Ia' & Iz' & H' & N' & E') Hx. assert (Hm : (0 < IZR m)%R) by (apply IZR_lt; lia).
  apply in_map_iff in Ia', Iz'. destruct Ia' as [a2 [Ea Ia']]. destruct Iz' as [z2 [Ez Iz']]. subst a' z'.
  assert (a2 = a). { pose proof (H a2 Ia'). pose proof (H' (s * a + b)%R (in_map _ _ _ Ia)). nra. }
  assert (z2 = z). { pose proof (H z2 Iz'). pose proof (H' (s * z + b)%R (in_map _ _ _ Iz)). nra. }
  subst. unfold in_bin. destruct (Req_dec a z) as [Q|Q].
  - destruct (E Q) as [-> ->]. destruct E' as [-> ->]; [now rewrite Q|]. subst z. assert (x = a) by (specialize (H x Hx); lra). subst x.
    replace (a + 1 / 2 - (a - 1 / 2))%R with 1%R by field. replace (s * a + b + 1 / 2 - (s * a + b - 1 / 2))%R with 1%R by field.
    split; intros [B [C D]]; (split; [assumption|]; split; [lra|]; destruct D as [D|[_ D]]; [left; lra|exfalso; lra]).
  - destruct (N Q) as [-> ->]. destruct N' as [-> ->]; [nra|].
    replace ((s * z + b - (s * a + b)) / IZR m)%R with (s * ((z - a) / IZR m))%R by (field; lra). set (h := ((z - a) / IZR m)%R).
    split; intros [B [C D]]; (split; [assumption|]; split; [nra|]; destruct D as [D|[D1 D2]]; [left; nra|right; split; [assumption|nra]]).
Qed.
(** The unit and the origin of the values do not matter. *)
Theorem mutual_information_affine X t m s b : 1 <= t -> 1 <= m -> (0 < s)%R ->
  mutual_information (map (fun x => s * x + b)%R X) t m = mutual_information X t m.
Proof.
  intros Ht M Hs. set (f := fun x => (s * x + b)%R). destruct (Z_lt_le_dec t (zlen X)) as [L|L].
  - destruct (mutual_information_joint X t m ltac:(lia) M) as (A & B & c & D & J & _). rewrite (mutual_information_spec X t m A B c Ht M D J).
    apply (mutual_information_spec _ t m (map f A) (map f B)); [assumption..| |].
    + destruct D as [LA [LB D]]. split; [now rewrite !zlen_map|]. split; [now rewrite !zlen_map|]. rewrite zlen_map. intros k Hk. rewrite !Znth_map. destruct (D k Hk) as [-> ->]. split; reflexivity.
    + destruct D as [LA [LB D]]. destruct J as (lo & hi & lo' & hi' & IA & IB & J).
      assert (NA : map f A <> []) by (intros E; apply map_eq_nil in E; rewrite E in LA; change (zlen (@nil R)) with 0 in LA; lia). assert (NB : map f B <> []) by (intros E; apply map_eq_nil in E; rewrite E in LB; change (zlen (@nil R)) with 0 in LB; lia).
      pose proof (outer_edges_spec _ NA) as IA'. pose proof (outer_edges_spec _ NB) as IB'. do 4 eexists. split; [exact IA'|]. split; [exact IB'|].
      intros i j Hi Hj. rewrite zlen_map. generalize (J i j Hi Hj). apply counts_ext. intros k Hk. rewrite !Znth_map. split.
      * intros (a' & b' & Ea & Eb & Ba & Bb). rewrite Ea, Eb. exists (f a'), (f b'). split; [reflexivity|]. split; [reflexivity|].
        split; [now apply (is_interval_affine A s b lo hi _ _ m i a' Hs M IA IA' (Znth_In _ _ _ Ea))|now apply (is_interval_affine B s b lo' hi' _ _ m j b' Hs M IB IB' (Znth_In _ _ _ Eb))].
      * destruct (Znth A k) as [a'|] eqn:Ea; [|intros (? & ? & ? & _); discriminate]. destruct (Znth B k) as [b'|] eqn:Eb; [|intros (? & ? & _ & ? & _); discriminate]. cbn [option_map].
        intros (? & ? & Xa & Xb & Ba & Bb). injection Xa as <-. injection Xb as <-. exists a', b'. split; [reflexivity|]. split; [reflexivity|].
        split; [now apply (is_interval_affine A s b lo hi _ _ m i a' Hs M IA IA' (Znth_In _ _ _ Ea))|now apply (is_interval_affine B s b lo' hi' _ _ m j b' Hs M IB IB' (Znth_In _ _ _ Eb))].
  - rewrite !mutual_information_degenerate; [reflexivity|..]; rewrite ?zlen_map; lia.
Qed.
Lemma is_interval_set l l' lo hi : (forall x, In x l <-> In x l') -> is_interval l lo hi -> is_interval l' lo hi.
Proof. intros S (a & b & Ia & Ib & H & R). exists a, b. split; [now apply S|]. split; [now apply S|]. split; [intros x Hx; apply H; now apply S|assumption]. Qed.
Lemma counts_reverse P n c : counts P n c -> counts (fun k => P (n - 1 - k)) n c.
Proof.
  intros [l [N [I L]]]. exists (map (fun k => n - 1 - k) l). split; [|split].
  - apply FinFun.Injective_map_NoDup; [|assumption]. intros a b E. lia.
  - intros k. rewrite in_map_iff. split.
    + intros [k' [<- K]]. apply I in K. destruct K as [K1 K2]. split; [lia|]. now replace (n - 1 - (n - 1 - k')) with k' by lia.
    + intros [K1 K2]. exists (n - 1 - k). split; [lia|]. apply I. split; [lia|assumption].
  - now rewrite zlen_map.
Qed.
(** Nor does the direction of time. *)
Theorem mutual_information_reverse X t m : 1 <= t -> 1 <= m -> mutual_information (rev X) t m = mutual_information X t m.
Proof.
  intros Ht M. assert (LR : forall (l : list R), zlen (rev l) = zlen l) by (intros l; unfold zlen; now rewrite rev_length).
  assert (NR : forall (l : list R) k, 0 <= k < zlen l -> Znth (rev l) k = Znth l (zlen l - 1 - k)).
  { intros l k Hk. unfold Znth. destruct (Z.ltb_spec k 0), (Z.ltb_spec (zlen l - 1 - k) 0); try lia. rewrite nth_error_rev_ex; [|unfold zlen in Hk; lia]. f_equal. unfold zlen in *. lia. }
  destruct (Z_lt_le_dec t (zlen X)) as [L|L].
  - destruct (mutual_information_joint X t m ltac:(lia) M) as (A & B & c & D & J & _). rewrite (mutual_information_spec X t m A B c Ht M D J). rewrite <- information_transpose.
    change (fun i j => IZR (c j i)) with (fun i j => IZR ((fun i j => c j i) i j)). apply (mutual_information_spec _ t m (rev B) (rev A)); [assumption..| |].
    + destruct D as [LA [LB D]]. split; [now rewrite !LR|]. split; [now rewrite !LR|]. rewrite LR. intros k Hk. rewrite !NR by lia. rewrite (proj2 (D (zlen B - 1 - k) ltac:(lia))), (proj1 (D (zlen A - 1 - k) ltac:(lia))). split; f_equal; lia.
    + destruct D as [LA [LB D]]. destruct J as (lo & hi & lo' & hi' & IA & IB & J). exists lo', hi', lo, hi. split; [eapply is_interval_set; [|eassumption]; intros; apply in_rev|]. split; [eapply is_interval_set; [|eassumption]; intros; apply in_rev|].
      intros i j Hi Hj. rewrite LR. replace (zlen B) with (zlen A) by lia. generalize (counts_reverse _ _ _ (J j i Hj Hi)). apply counts_ext. intros k Hk. rewrite !NR by lia. replace (zlen B) with (zlen A) by lia.
      split; intros (a & b & K1 & K2 & K3 & K4); exists b, a; auto.
  - rewrite !mutual_information_degenerate; [reflexivity|..]; rewrite ?LR; lia.
Qed.
Print Assumptions mutual_information_spec.
Print Assumptions mutual_information_joint.
Print Assumptions mutual_information_nonneg.
Print Assumptions mutual_information_zero.
Print Assumptions mutual_information_constant.
Print Assumptions mutual_information_degenerate.
Print Assumptions mutual_information_affine.
Print Assumptions mutual_information_reverse.
