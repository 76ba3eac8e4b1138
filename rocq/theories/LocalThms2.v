(** C58 for KNeighborsLocalVietorisRips; C59: histories of the local homology transformers. *)
From Coq Require Import Permutation.
From Verif Require Import Np NpFacts Fl FlFacts DiagModel HomModel GraphSpec GraphProofs RescaleProofs LocalModel LocalSpec LocalThms.
From Verif Require DiagSpec HomSpec HomThms.
Open Scope Z_scope.

(** ** The k nearest points *)
Lemma filter_index {A} (f : A -> bool) (l : list A) :
  zlen (filter f l) = zlen (filter (fun j => match Znth l j with Some x => f x | None => false end) (arange (zlen l))).
Proof.
  destruct l as [|d l']; [reflexivity|]. set (l := d :: l').
  rewrite <- (map_Znth_arange d l) at 1. set (g := fun i => match Znth l i with Some x => x | None => d end).
  assert (G : forall m, (forall i, In i m -> 0 <= i < zlen l) ->
    zlen (filter f (map g m)) = zlen (filter (fun j => match Znth l j with Some x => f x | None => false end) m)).
  { induction m as [|i m IH]; intros H; [reflexivity|]. cbn [map filter].
    destruct (Znth_ex l i) as [x Hx]; [apply H; now left|]. unfold g at 1. rewrite Hx.
    specialize (IH (fun i I => H i (or_intror I))). destruct (f x); rewrite ?zlen_cons, IH; reflexivity. }
  apply G. intros i I. now apply In_arange in I.
Qed.
Lemma NoDup_incl_zlen (l m : list Z) : NoDup l -> incl l m -> zlen l <= zlen m.
Proof. intros N I. unfold zlen. pose proof (NoDup_incl_length N I). lia. Qed.

Lemma nearest_iff {P} (dist : P -> P -> fl) train x k l i : no_ties dist train x -> nearest dist train x k l ->
  (In i l <-> k_nearest dist train x k i).
Proof.
  intros NT (ND & L & RG & NR). unfold k_nearest. split.
  - intro I. destruct (Znth_ex train i) as [p Hp]; [auto|]. exists p. split; auto.
    rewrite filter_index. set (F := filter _ _).
    assert (incl (i :: F) l).
    { intros j [<-|J]; auto. apply filter_In in J as [J E]. destruct (Znth train j) as [q|] eqn:Ej; [|easy].
      destruct (in_dec Z.eq_dec j l) as [|NI]; auto. pose proof (NR i j p q I NI Hp Ej) as C.
      apply flt_not_fle in E. congruence. }
    assert (NoDup (i :: F)).
    { constructor; [|apply NoDup_filter, NoDup_arange]. intro J. apply filter_In in J as [_ E]. rewrite Hp in E.
      destruct (dist x p); try easy. cbn in E. destruct (Qcltb_spec q q); [exfalso; qlra|easy]. }
    pose proof (NoDup_incl_zlen (i :: F) l) as C. rewrite zlen_cons in C. specialize (C ltac:(assumption) ltac:(assumption)). lia.
  - intros (p & Hp & C). destruct (in_dec Z.eq_dec i l) as [|NI]; auto. exfalso.
    rewrite filter_index in C. set (F := filter _ _) in C.
    assert (incl l F).
    { intros j J. apply filter_In. split; [apply In_arange; auto|].
      destruct (Znth_ex train j) as [q Hq]; [auto|]. rewrite Hq. pose proof (NR j i q p J NI Hq Hp) as E.
      destruct (flt (dist x q) (dist x p)) eqn:Fl'; auto. exfalso.
      apply (NT j i q p); auto; [congruence|]. apply fle_nan in E as E'. apply fle_antisym; auto.
      apply flt_false; tauto. }
    pose proof (NoDup_incl_zlen l F ND H). lia.
Qed.

Section KNeighbors.
Context {P : Type}.
Variable dist : P -> P -> fl.
Variable set_order : list Z -> list Z.
Hypothesis order_perm : forall l, NoDup l -> Permutation (set_order l) l.
Variable junk : pt.
Variable ripser : Z -> fl -> list (list fl) -> list (list (fl * fl)).
Variable kneighbors : list P -> Z -> P -> list Z.
(** What sklearn promises: k nearest points, for k at most the number of points. *)
Hypothesis kneighbors_sound : forall train k x, 1 <= k <= zlen train -> nearest dist train x k (kneighbors train k x).
Notation k_transform := (k_transform dist set_order kneighbors junk ripser).

(** fit on a set of s points: with a the smaller and b the larger of n_neighbors, the numbers of
    neighbours used are min(a, s - 1) and min(b, s). *)
Theorem kneighbors_fit_spec n1 n2 (train : list P) :
  (1 <= n1 /\ 1 <= n2 /\ 2 <= zlen train /\
   exists e, k_fit (k_init (n1, n2)) train = Ok e /\
     k_trained e = Some (Z.min (Z.min n1 n2) (zlen train - 1), Z.min (Z.max n1 n2) (zlen train), train)) \/
  (~ (1 <= n1 /\ 1 <= n2 /\ 2 <= zlen train) /\
   k_fit (k_init (n1, n2)) train = Err (if Z.eq_dec (Z.max n1 n2) 0 then AttributeError else ValueError)).
Proof.
  unfold k_fit, k_init, k_base_fit. cbn [k_n_neighbors k_params fst snd]. pose proof (zlen_nonneg train).
  assert (NP : (if n2 <? n1 then (n2, n1) else (n1, n2)) = (Z.min n1 n2, Z.max n1 n2)).
  { destruct (Z.ltb_spec n2 n1); f_equal; lia. }
  rewrite NP. cbn [fst snd]. destruct (Z.eqb_spec (Z.max n1 n2) 0) as [M|M]; cbn [bind].
  { right. split; [lia|]. now destruct (Z.eq_dec (Z.max n1 n2) 0). }
  destruct (Z.leb_spec 1 n1), (Z.leb_spec 1 n2); cbn [andb negb].
  2-4: right; split; [lia|]; now destruct (Z.eq_dec (Z.max n1 n2) 0).
  destruct (Z.eqb_spec (zlen train) 0); [right; split; [lia|]; now destruct (Z.eq_dec (Z.max n1 n2) 0)|].
  cbn [fst snd].
  assert (EQ : (let np := if zlen train <=? Z.min n1 n2 then (zlen train - 1, zlen train) else (Z.min n1 n2, Z.max n1 n2) in
    if zlen train <? snd np then (fst np, zlen train) else np) = (Z.min (Z.min n1 n2) (zlen train - 1), Z.min (Z.max n1 n2) (zlen train))).
  { cbn zeta. destruct (Z.leb_spec (zlen train) (Z.min n1 n2)); cbn [fst snd].
    - destruct (Z.ltb_spec (zlen train) (zlen train)); [lia|]. f_equal; lia.
    - destruct (Z.ltb_spec (zlen train) (Z.max n1 n2)); f_equal; lia. }
  cbn zeta in EQ. rewrite EQ. cbn [fst snd].
  destruct (Z.leb_spec (Z.min (Z.min n1 n2) (zlen train - 1)) 0); cbn [orb].
  { right. split; [lia|]. now destruct (Z.eq_dec (Z.max n1 n2) 0). }
  destruct (Z.leb_spec (Z.min (Z.max n1 n2) (zlen train)) 0); [lia|].
  left. repeat split; auto; [lia|]. eexists. split; reflexivity.
Qed.

(** Then transform: the neighbourhoods of x are the training points among the nearest, when x has no
    two training points at the same distance. *)
Theorem kneighbors_spec n1 n2 dims train X e : (forall p q, dist p q = dist q p) -> (forall p q, dist p q <> NaN) ->
  X <> [] -> (forall x, In x X -> no_ties dist train x) ->
  k_fit (k_init (n1, n2)) train = Ok e ->
  exists mats,
    Forall2 (fun x M => documented_matrix dist train
                          (k_nearest dist train x (Z.min (Z.min n1 n2) (zlen train - 1)))
                          (k_nearest dist train x (Z.min (Z.max n1 n2) (zlen train))) M) X mats /\
    k_transform dims e X = vr_fit_transform junk ripser dims PInf None true mats.
Proof.
  intros SY NN NE NT FT. destruct (kneighbors_fit_spec n1 n2 train) as [(H1 & H2 & H3 & e' & E & T)|(_ & E)]; [|congruence].
  rewrite FT in E. injection E as <-. unfold LocalModel.k_transform. rewrite T.
  set (a := Z.min (Z.min n1 n2) (zlen train - 1)) in *. set (b := Z.min (Z.max n1 n2) (zlen train)) in *.
  assert (A : 1 <= a <= zlen train) by lia. assert (B : 1 <= b <= zlen train) by lia.
  destruct (local_transform_ok dist set_order order_perm junk ripser dims train (kneighbors train a) (kneighbors train b) X) as (mats & F & E); auto.
  { intros; now apply kneighbors_sound. } { intros x k _ I; now apply (kneighbors_sound train a x A). }
  { intros x k _ I; now apply (kneighbors_sound train b x B). }
  exists mats. split; auto. eapply Forall2_imp_In; [|exact F]. intros x M I. apply documented_iff.
  - intro k. apply nearest_iff; auto.
  - intro k. rewrite (nearest_iff dist train x a _ k (NT x I) (kneighbors_sound train a x A)), (nearest_iff dist train x b _ k (NT x I) (kneighbors_sound train b x B)).
    split; [|tauto]. intros [(p & Hp & L)|]; auto. exists p. split; auto. lia.
Qed.

(** Ties or not: the neighbourhoods are those sklearn finds, the larger one completed with the inner one. *)
Theorem kneighbors_general n1 n2 dims train X e : (forall p q, dist p q = dist q p) -> (forall p q, dist p q <> NaN) ->
  X <> [] -> k_fit (k_init (n1, n2)) train = Ok e ->
  exists mats inner larger,
    (forall x, nearest dist train x (Z.min (Z.min n1 n2) (zlen train - 1)) (inner x)) /\
    (forall x, nearest dist train x (Z.min (Z.max n1 n2) (zlen train)) (larger x)) /\
    Forall2 (fun x M => documented_matrix dist train (fun k => In k (inner x)) (fun k => In k (inner x) \/ In k (larger x)) M) X mats /\
    k_transform dims e X = vr_fit_transform junk ripser dims PInf None true mats.
Proof.
  intros SY NN NE FT. destruct (kneighbors_fit_spec n1 n2 train) as [(H1 & H2 & H3 & e' & E & T)|(_ & E)]; [|congruence].
  rewrite FT in E. injection E as <-. unfold LocalModel.k_transform. rewrite T.
  set (a := Z.min (Z.min n1 n2) (zlen train - 1)) in *. set (b := Z.min (Z.max n1 n2) (zlen train)) in *.
  assert (A : 1 <= a <= zlen train) by lia. assert (B : 1 <= b <= zlen train) by lia.
  destruct (local_transform_ok dist set_order order_perm junk ripser dims train (kneighbors train a) (kneighbors train b) X) as (mats & F & E); auto.
  { intros; now apply kneighbors_sound. } { intros x k _ I; now apply (kneighbors_sound train a x A). }
  { intros x k _ I; now apply (kneighbors_sound train b x B). }
  exists mats, (kneighbors train a), (kneighbors train b). split; [intro; now apply kneighbors_sound|]. split; [intro; now apply kneighbors_sound|]. auto.
Qed.
End KNeighbors.

(** ** Histories *)
Section Histories.
Context {P : Type}.
Inductive op {T} := Fit (X : list P) | SetParams (p : T).
Arguments op T : clear implicits.
(** The state after a history; a failing fit stops it. *)
Fixpoint k_history (e : kest P) (h : list (op (Z * Z))) : res (kest P) :=
  match h with
  | [] => Ok e
  | Fit X :: t => do e' <- k_fit e X; k_history e' t
  | SetParams p :: t => k_history (k_set_params e p) t
  end.
Fixpoint r_history (e : rest P) (h : list (op (Qc * Qc))) : res (rest P) :=
  match h with
  | [] => Ok e
  | Fit X :: t => do e' <- r_fit e X; r_history e' t
  | SetParams p :: t => r_history (r_set_params e p) t
  end.
Definition is_fit {T} (o : op T) : Prop := match o with Fit _ => True | _ => False end.

(** RadiusLocalVietorisRips: after fits on any data, fitting gives the same as fitting a new estimator. *)
Theorem radius_refit radii (h : list (op (Qc * Qc))) e X : Forall is_fit h ->
  r_history (r_init radii) h = Ok e -> r_fit e X = r_fit (r_init radii) X.
Proof.
  intros F H.
  set (np := if Qcltb (snd radii) (fst radii) then (snd radii, fst radii) else radii).
  set (rd := if Qceqb (snd np) (qz 0) then (fst radii, qz 1) else radii).
  assert (K : (r_radii e = radii \/ r_radii e = rd) /\ (r_params e = radii \/ r_params e = np)).
  { assert (G : forall e0, (r_radii e0 = radii \/ r_radii e0 = rd) /\ (r_params e0 = radii \/ r_params e0 = np) ->
      r_history e0 h = Ok e -> (r_radii e = radii \/ r_radii e = rd) /\ (r_params e = radii \/ r_params e = np)).
    { clear H. induction F as [|[X'|] h O F IH]; intros e0 I H; cbn [r_history] in H; [now injection H as <-| |destruct O].
      destruct (r_fit e0 X') as [e1|] eqn:E; [|easy]. cbn [bind] in H. apply (IH e1); auto. clear - E I.
      unfold r_fit, r_base_fit in E.
      set (np' := if Qcltb (snd (r_params e0)) (fst (r_params e0)) then _ else _) in E.
      assert (NP : np' = np).
      { unfold np', np. destruct I as [_ [-> | ->]]; auto. unfold np. destruct (Qcltb_spec (snd radii) (fst radii)); cbn [fst snd]; auto.
        - destruct (Qcltb_spec (fst radii) (snd radii)); auto. exfalso; qlra.
        - destruct (Qcltb_spec (snd radii) (fst radii)); auto. contradiction. }
      rewrite NP in E. destruct (negb _) in E; [easy|]. destruct (zlen X' =? 0) in E; [easy|]. injection E as <-.
      cbn [r_radii r_params]. split; auto. destruct I as [[-> | ->] _].
      - unfold rd. destruct (Qceqb (snd np) (qz 0)); auto.
      - right. unfold rd. destruct (Qceqb (snd np) (qz 0)); auto. }
    apply (G (r_init radii)); auto. }
  destruct K as [K1 K2]. unfold r_fit. cbn [r_init r_radii r_params].
  assert (B : r_base_fit (r_radii e) (r_params e) = r_base_fit radii radii).
  { unfold r_base_fit. fold np.
    assert (NP : (if Qcltb (snd (r_params e)) (fst (r_params e)) then (snd (r_params e), fst (r_params e)) else r_params e) = np).
    { destruct K2 as [-> | ->]; auto. unfold np. destruct (Qcltb_spec (snd radii) (fst radii)); cbn [fst snd]; auto.
      - destruct (Qcltb_spec (fst radii) (snd radii)); auto. exfalso; qlra.
      - destruct (Qcltb_spec (snd radii) (fst radii)); auto. contradiction. }
    rewrite NP. fold rd. f_equal. destruct K1 as [-> | ->]; auto. unfold rd. destruct (Qceqb (snd np) (qz 0)); auto. }
  rewrite B. destruct (r_base_fit radii radii) as [rd' np']. reflexivity.
Qed.

(** Whatever set_params is given, the radii used are those of the constructor. *)
Theorem radius_set_params_ignored radii (h : list (op (Qc * Qc))) e e' X :
  r_history (r_init radii) h = Ok e -> r_fit e X = Ok e' ->
  r_trained e' = Some (if Qclt_le_dec (snd radii) (fst radii) then snd radii else fst radii,
                       if Qclt_le_dec (snd radii) (fst radii) then fst radii else snd radii, X).
Proof.
  intros H FT.
  set (np := if Qcltb (snd radii) (fst radii) then (snd radii, fst radii) else radii).
  assert (IDEM : forall p, p = radii \/ p = np -> (if Qcltb (snd p) (fst p) then (snd p, fst p) else p) = np).
  { intros p [-> | ->]; auto. unfold np. destruct (Qcltb_spec (snd radii) (fst radii)); cbn [fst snd]; auto.
    - destruct (Qcltb_spec (fst radii) (snd radii)); auto. exfalso; qlra.
    - destruct (Qcltb_spec (snd radii) (fst radii)); auto. contradiction. }
  assert (K : r_params e = radii \/ r_params e = np).
  { assert (G : forall e0, r_params e0 = radii \/ r_params e0 = np -> r_history e0 h = Ok e -> r_params e = radii \/ r_params e = np).
    { clear H FT. induction h as [|[X'|p] h IH]; intros e0 I H; cbn [r_history] in H; [now injection H as <-| |apply (IH (r_set_params e0 p)); auto].
      destruct (r_fit e0 X') as [e1|] eqn:E; [|easy]. cbn [bind] in H. apply (IH e1); auto. clear - E I IDEM.
      unfold r_fit, r_base_fit in E. rewrite (IDEM _ I) in E.
      destruct (negb _) in E; [easy|]. destruct (zlen X' =? 0) in E; [easy|]. injection E as <-. auto. }
    apply (G (r_init radii)); auto. }
  unfold r_fit, r_base_fit in FT. rewrite (IDEM _ K) in FT.
  destruct (negb _) in FT; [easy|]. destruct (zlen X =? 0) in FT; [easy|]. injection FT as <-. cbn [r_trained]. do 2 f_equal.
  unfold np. destruct (Qcltb_spec (snd radii) (fst radii)), (Qclt_le_dec (snd radii) (fst radii)); try (exfalso; qlra); auto.
  now destruct radii.
Qed.

(** KNeighborsLocalVietorisRips: the numbers used depend on the smallest set ever fitted, and never on
    set_params. *)
Fixpoint sizes (h : list (op (Z * Z))) : list Z :=
  match h with [] => [] | Fit X :: t => zlen X :: sizes t | _ :: t => sizes t end.
Theorem kneighbors_history n1 n2 (h : list (op (Z * Z))) e e' X : 1 <= n1 -> 1 <= n2 ->
  k_history (k_init (n1, n2)) h = Ok e -> k_fit e X = Ok e' ->
  exists a b, k_trained e' = Some (a, b, X) /\
    (a = fold_right Z.min (Z.min n1 n2) (map (fun s => s - 1) (zlen X :: sizes h))) /\
    (b = fold_right Z.min (Z.max n1 n2) (zlen X :: sizes h)).
Proof.
  intros H1 H2 H FT.
  assert (ST : forall (e0 : kest P) (X0 : list P) e1 a b, 1 <= a <= b -> (k_params e0 = (a, b) \/ k_params e0 = (b, a)) -> k_fit e0 X0 = Ok e1 ->
    k_params e1 = (Z.min a (zlen X0 - 1), Z.min b (zlen X0)) /\ k_trained e1 = Some (k_params e1, X0) /\
    1 <= Z.min a (zlen X0 - 1) <= Z.min b (zlen X0)).
  { clear. intros e0 X0 e1 a b AB K E. unfold k_fit, k_base_fit in E.
    assert (NP : (if snd (k_params e0) <? fst (k_params e0) then (snd (k_params e0), fst (k_params e0)) else k_params e0) = (a, b)).
    { destruct K as [-> | ->]; cbn [fst snd]; [destruct (Z.ltb_spec b a)|destruct (Z.ltb_spec a b)]; f_equal; lia. }
    rewrite NP in E. cbn [fst snd] in E. destruct (b =? 0) eqn:B0; [lia|]. cbn [bind] in E.
    destruct (negb _) in E; [easy|]. destruct (Z.eqb_spec (zlen X0) 0); [easy|]. cbn [fst snd] in E.
    assert (EQ : (let np := if zlen X0 <=? a then (zlen X0 - 1, zlen X0) else (a, b) in
      if zlen X0 <? snd np then (fst np, zlen X0) else np) = (Z.min a (zlen X0 - 1), Z.min b (zlen X0))).
    { cbn zeta. destruct (Z.leb_spec (zlen X0) a); cbn [fst snd].
      - destruct (Z.ltb_spec (zlen X0) (zlen X0)); [lia|]. f_equal; lia.
      - destruct (Z.ltb_spec (zlen X0) b); f_equal; lia. }
    cbn zeta in EQ. rewrite EQ in E. cbn [fst snd] in E. destruct (Z.leb_spec (Z.min a (zlen X0 - 1)) 0); [easy|].
    destruct (Z.leb_spec (Z.min b (zlen X0)) 0); [easy|]. cbn [orb] in E. injection E as <-. cbn. repeat split; auto; lia. }
  assert (G : forall h e0 a b, 1 <= a <= b -> (k_params e0 = (a, b) \/ k_params e0 = (b, a)) -> k_history e0 h = Ok e ->
    exists a' b', 1 <= a' <= b' /\ (k_params e = (a', b') \/ k_params e = (b', a')) /\
      a' = fold_right Z.min a (map (fun s => s - 1) (sizes h)) /\ b' = fold_right Z.min b (sizes h)).
  { clear H FT h. induction h as [|[X'|p] h IH]; intros e0 a b AB K H; cbn [k_history sizes] in *.
    - injection H as <-. exists a, b. repeat split; auto; lia.
    - destruct (k_fit e0 X') as [e1|] eqn:E; [|easy]. cbn [bind] in H. destruct (ST _ _ _ _ _ AB K E) as (K1 & _ & B1).
      destruct (IH e1 _ _ B1 (or_introl K1) H) as (a' & b' & B' & K' & -> & ->).
      exists (fold_right Z.min (Z.min a (zlen X' - 1)) (map (fun s => s - 1) (sizes h))), (fold_right Z.min (Z.min b (zlen X')) (sizes h)).
      split; [exact B'|]. split; [exact K'|].
      assert (FR : forall l c d, fold_right Z.min (Z.min c d) l = Z.min d (fold_right Z.min c l)).
      { clear. induction l as [|x l IH]; intros c d; cbn [fold_right]; [lia|]. rewrite IH. lia. }
      cbn [map fold_right]. now rewrite !FR.
    - apply (IH (k_set_params e0 p) a b AB K H). }
  destruct (G h (k_init (n1, n2)) (Z.min n1 n2) (Z.max n1 n2)) as (a & b & AB & K & -> & ->); auto; [lia| |].
  { cbn [k_init k_params]. destruct (Z.le_ge_cases n1 n2); [left|right]; f_equal; lia. }
  destruct (ST _ _ _ _ _ AB K FT) as (K1 & T & _). rewrite K1 in T.
  eexists _, _. split; [exact T|]. cbn [map fold_right]. split; lia.
Qed.

(** So a refit on enough points is as good as new, but not always. *)
Theorem kneighbors_refit n1 n2 (h : list (op (Z * Z))) e e' X : 1 <= n1 -> 1 <= n2 ->
  (forall s, In s (sizes h) -> zlen X <= s \/ (Z.min n1 n2 < s /\ Z.max n1 n2 <= s)) ->
  k_history (k_init (n1, n2)) h = Ok e -> k_fit e X = Ok e' ->
  k_trained e' = Some (Z.min (Z.min n1 n2) (zlen X - 1), Z.min (Z.max n1 n2) (zlen X), X).
Proof.
  intros H1 H2 HS H FT. destruct (kneighbors_history n1 n2 h e e' X H1 H2 H FT) as (a & b & T & -> & ->). rewrite T.
  do 2 f_equal. cbn [map fold_right].
  assert (A : forall l, (forall s, In s l -> zlen X <= s \/ (Z.min n1 n2 < s /\ Z.max n1 n2 <= s)) ->
    Z.min (zlen X - 1) (fold_right Z.min (Z.min n1 n2) (map (fun s => s - 1) l)) = Z.min (Z.min n1 n2) (zlen X - 1) /\
    Z.min (zlen X) (fold_right Z.min (Z.max n1 n2) l) = Z.min (Z.max n1 n2) (zlen X)).
  { induction l as [|s l IH]; intros K; cbn [map fold_right]; [lia|].
    destruct IH as [I1 I2]; [intros; apply K; now right|]. specialize (K s (or_introl eq_refl)). lia. }
  destruct (A _ HS) as [-> ->]. reflexivity.
Qed.

(** clone() after set_params uses the new parameters. *)
Theorem set_params_then_clone (ek : kest P) (er : rest P) nk rr :
  k_clone (k_set_params ek nk) = k_init nk /\ r_clone (r_set_params er rr) = r_init rr.
Proof. split; reflexivity. Qed.
End Histories.
Arguments op P T : clear implicits.

(** Fitting on 3 points, then on 5: 2 and 3 neighbours are used, where a new estimator uses 4 and 5. *)
Theorem kneighbors_refit_refuted :
  exists (e e' e'' : kest Z), k_fit (k_init (4, 5)) [0; 1; 2] = Ok e /\ k_fit e [0; 1; 2; 3; 4] = Ok e' /\
    k_fit (k_init (4, 5)) [0; 1; 2; 3; 4] = Ok e'' /\
    k_trained e' = Some (2, 3, [0; 1; 2; 3; 4]) /\ k_trained e'' = Some (4, 5, [0; 1; 2; 3; 4]).
Proof. do 3 eexists. repeat split. Qed.
(** set_params(n_neighbors=(1, 4)) before fit, and set_params(radii=(3, 4)): not used. *)
Theorem set_params_refuted :
  exists (e e' : kest Z), k_fit (k_set_params (k_init (1, 2)) (1, 4)) [0; 1; 2; 3; 4] = Ok e /\
    k_fit (k_init (1, 4)) [0; 1; 2; 3; 4] = Ok e' /\ k_trained e <> k_trained e'.
Proof. do 2 eexists. repeat split. easy. Qed.
(** "Second radius set to 1": the attribute radii is changed, the radius used is 0. *)
Theorem second_radius_refuted (train : list Z) : train <> [] ->
  exists e, r_fit (r_init (qz 0, qz 0)) train = Ok e /\ r_radii e = (qz 0, qz 1) /\ r_trained e = Some (qz 0, qz 0, train).
Proof.
  intro H. destruct train as [|x t]; [easy|]. unfold r_fit, r_base_fit, r_init. cbn [r_radii r_params fst snd].
  destruct (Qcltb_spec (qz 0) (qz 0)); [exfalso; qlra|]. cbn [fst snd]. destruct (Qceqb_spec (qz 0) (qz 0)); [|easy]. cbn [fst snd].
  destruct (Qcleb_spec (qz 0) (qz 0)); [|exfalso; qlra]. destruct (Qcleb_spec (qz 0) (qz 1)); [|exfalso; rewrite qz_0, qz_1 in *; qlra].
  cbn [andb negb]. rewrite zlen_cons. pose proof (zlen_nonneg t). destruct (Z.eqb_spec (zlen t + 1) 0); [lia|]. eexists. repeat split.
Qed.
(** Before fit, or after a fit that was refused, transform raises NotFittedError; RadiusLocalVietorisRips
    refuses with ValueError. *)
Theorem local_unfitted {P} (dist : P -> P -> fl) order kneighbors radius_neighbors junk ripser dims (nk : Z * Z) (rr : Qc * Qc) X :
  k_transform dist order kneighbors junk ripser dims (k_init nk) X = Err NotFittedError /\
  r_transform dist order radius_neighbors junk ripser dims (r_init rr) X = Err NotFittedError.
Proof. split; reflexivity. Qed.
Theorem radius_fit_error {P} (e : rest P) X err : r_fit e X = Err err -> err = ValueError.
Proof.
  unfold r_fit. destruct (r_base_fit (r_radii e) (r_params e)) as [radii np]. destruct (negb _); [now injection 1|].
  destruct (zlen X =? 0); [now injection 1|easy].
Qed.
(** n_neighbors=(0, 0) is an AttributeError, not the ValueError of the validation. *)
Example zero_neighbors : k_fit (@k_init Z (0, 0)) [1; 2; 3] = Err AttributeError.
Proof. reflexivity. Qed.

(** ** A concrete case: points on a line *)
Definition ldist (p q : Z) : fl := fz (Z.abs (p - q)).
Lemma ldist_sym p q : ldist p q = ldist q p.
Proof. unfold ldist. replace (Z.abs (q - p)) with (Z.abs (p - q)) by lia. reflexivity. Qed.
Example cone_example :
  coned_matrix ldist (fun l => l) [0; 1; 5; 7; 30] [1; 0] [0; 1; 2; 3] =
  Ok [[fz 0; fz 1; fz 4; fz 6; PInf]; [fz 1; fz 0; fz 5; fz 7; PInf]; [fz 4; fz 5; fz 0; fz 2; fz 0];
      [fz 6; fz 7; fz 2; fz 0; fz 0]; [PInf; PInf; fz 0; fz 0; fz 0]].
Proof. reflexivity. Qed.
(** A radius search and a nearest neighbour search as assumed exist. *)
Definition lradius (train : list Z) (r : Qc) (x : Z) : list Z :=
  filter (fun k => match Znth train k with Some p => fle (ldist x p) (Fin r) | None => false end) (arange (zlen train)).
Example lradius_sound train r x : NoDup (lradius train r x) /\ forall k, In k (lradius train r x) <-> within ldist train x r k.
Proof.
  split; [apply NoDup_filter, NoDup_arange|]. intro k. unfold lradius, within. rewrite filter_In, In_arange. split.
  - intros [B E]. destruct (Znth train k) as [p|]; [eauto|easy].
  - intros (p & Hp & E). rewrite Hp. split; auto. eapply Znth_Some_lt; eauto.
Qed.
Example no_ties_example : no_ties ldist [0; 1; 5; 7; 30] 1.
Proof.
  intros i j p q Hi Hj N E.
  assert (B : 0 <= i < 5) by (apply Znth_Some_lt in Hi; exact Hi). assert (B' : 0 <= j < 5) by (apply Znth_Some_lt in Hj; exact Hj).
  assert (forall i p, 0 <= i < 5 -> Znth [0; 1; 5; 7; 30] i = Some p -> (i, p) = (0, 0) \/ (i, p) = (1, 1) \/ (i, p) = (2, 5) \/ (i, p) = (3, 7) \/ (i, p) = (4, 30)) as C.
  { clear. intros i p B H. assert (i = 0 \/ i = 1 \/ i = 2 \/ i = 3 \/ i = 4) as [->|[->|[->|[->| ->]]]] by lia; cbn in H; injection H as <-; tauto. }
  destruct (C _ _ B Hi) as [K|[K|[K|[K|K]]]]; injection K as -> ->;
  destruct (C _ _ B' Hj) as [K|[K|[K|[K|K]]]]; injection K as -> ->; try lia; discriminate E.
Qed.
(** With ties the nearest points for a larger number need not contain those for a smaller one: the
    cone then has more points than asked for. *)
Example ties : let train := [1; -1; -1] in
  nearest ldist train 0 1 [0] /\ nearest ldist train 0 2 [1; 2] /\
  exists M, coned_matrix ldist (fun l => l) train [0] [1; 2] = Ok M /\ square M 4.
Proof.
  assert (D : forall i p, Znth [1; -1; -1] i = Some p -> ldist 0 p = fz 1).
  { intros i p H. apply Znth_In in H as [<-|[<-|[<-|[]]]]; reflexivity. }
  assert (R : fle (fz 1) (fz 1) = true) by reflexivity. cbn zeta.
  split; [split; [repeat constructor; easy|]; split; [reflexivity|]; split; [intros i [<-|[]]; unfold zlen; cbn; lia|]|].
  { intros i j p q _ _ Hp Hq. rewrite (D _ _ Hp), (D _ _ Hq). exact R. }
  split; [split; [repeat constructor; cbn; intuition congruence|]; split; [reflexivity|]; split; [intros i [<-|[<-|[]]]; unfold zlen; cbn; lia|]|].
  { intros i j p q _ _ Hp Hq. rewrite (D _ _ Hp), (D _ _ Hq). exact R. }
  eexists. split; [reflexivity|]. split; [reflexivity|]. intros r [<-|[<-|[<-|[<-|[]]]]]; reflexivity.
Qed.

Print Assumptions coned_matrix_spec.
Print Assumptions radius_spec.
Print Assumptions kneighbors_spec.
Print Assumptions kneighbors_history.
Print Assumptions local_unfitted.
Print Assumptions radius_fit_error.
