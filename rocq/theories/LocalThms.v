(** C58: the matrices used by the local homology transformers. *)
From Coq Require Import Permutation.
From Verif Require Import Np NpFacts Fl FlFacts DiagModel HomModel ValidModel ValidSpec ValidThms GraphSpec GraphProofs LocalModel LocalSpec.
From Verif Require DiagSpec HomSpec HomThms CurveThms2.
Open Scope Z_scope.

Section Local.
Context {P : Type}.
Variable dist : P -> P -> fl.
Variable set_order : list Z -> list Z.
Hypothesis order_perm : forall l, NoDup l -> Permutation (set_order l) l.
Notation coned_matrix := (coned_matrix dist set_order).

Lemma existsb_Zeq k l : existsb (Z.eqb k) l = true <-> In k l.
Proof.
  rewrite existsb_exists. split.
  - intros (x & I & E). apply Z.eqb_eq in E. now subst.
  - intro I. exists k. split; auto. apply Z.eqb_refl.
Qed.
Definition annulus (close relevant : list Z) : list Z :=
  set_order (filter (fun k => negb (existsb (Z.eqb k) close)) (nodup Z.eq_dec relevant)).
Lemma annulus_spec close relevant : NoDup (annulus close relevant) /\
  forall k, In k (annulus close relevant) <-> In k relevant /\ ~ In k close.
Proof.
  unfold annulus. set (l := filter _ _).
  assert (N : NoDup l) by (apply NoDup_filter, NoDup_nodup). pose proof (order_perm l N) as Pm.
  split; [eapply Permutation_NoDup; [symmetry; exact Pm|exact N]|]. intro k. split.
  - intro I. apply (Permutation_in _ Pm) in I. apply filter_In in I as [I E]. apply nodup_In in I.
    split; auto. intro C. apply existsb_Zeq in C. now rewrite C in E.
  - intros [I C]. apply (Permutation_in _ (Permutation_sym Pm)). apply filter_In. split; [now apply nodup_In|].
    destruct (existsb (Z.eqb k) close) eqn:E; auto. now apply existsb_Zeq in E.
Qed.

(** The entries of the matrix, whatever the metric. *)
Definition cone_entries (train : list P) (close vertices : list Z) (M : list (list fl)) : Prop :=
  square M (zlen vertices + 1) /\
  (forall a b i j p q, Znth vertices a = Some i -> Znth vertices b = Some j ->
     Znth train i = Some p -> Znth train j = Some q -> a <> b ->
     entry M a b = Some (if a <? b then dist p q else dist q p)) /\
  (forall a, 0 <= a <= zlen vertices -> entry M a a = Some (fz 0)) /\
  (forall a i, Znth vertices a = Some i ->
     entry M a (zlen vertices) = Some (if existsb (Z.eqb i) close then PInf else fz 0) /\
     entry M (zlen vertices) a = Some (if existsb (Z.eqb i) close then PInf else fz 0)).

Lemma coned_entries train close relevant : NoDup close -> close <> [] ->
  (forall k, In k close -> 0 <= k < zlen train) -> (forall k, In k relevant -> 0 <= k < zlen train) ->
  exists M, coned_matrix train close relevant = Ok M /\
    cone_entries train close (close ++ annulus close relevant) M.
Proof.
  intros NC NE RC RR. unfold LocalModel.coned_matrix. fold (annulus close relevant).
  destruct (annulus_spec close relevant) as [NA IA]. set (ann := annulus close relevant) in *.
  assert (zlen close =? 0 = false) as ->.
  { apply Z.eqb_neq. destruct close; [easy|]. rewrite zlen_cons. pose proof (zlen_nonneg close). lia. }
  set (V := close ++ ann).
  assert (RV : forall k, In k V -> 0 <= k < zlen train).
  { intros k I. apply in_app_or in I as [I|I]; auto. apply IA in I. apply RR. tauto. }
  assert (PT : exists pts, mapM (py_get train) V = Ok pts /\ Forall2 (fun k p => Znth train k = Some p) V pts).
  { clearbody V. clear - RV. induction V as [|k V IH]; [exists []; auto|].
    destruct IH as (pts & E & F); [intros; apply RV; now right|].
    destruct (Znth_ex train k) as [p Hp]; [apply RV; now left|]. exists (p :: pts). cbn [mapM].
    rewrite (py_get_in _ _ _ (proj1 (RV k (or_introl eq_refl))) Hp), E. auto. }
  destruct PT as (pts & EP & FP). rewrite EP. cbn [bind]. pose proof (Forall2_zlen _ _ _ FP) as LP.
  set (loc := squareform_pdist dist pts). set (row := map (fun _ => PInf) close ++ map (fun _ => fz 0) ann).
  assert (LR : zlen row = zlen V) by (unfold row, V; rewrite !zlen_app, !zlen_map; lia).
  assert (LL : zlen loc = zlen V) by (unfold loc, squareform_pdist; rewrite zlen_mapi; lia).
  assert (HL : forall a r, Znth loc a = Some r -> zlen r = zlen V).
  { intros a r H. unfold loc, squareform_pdist in H. rewrite Znth_mapi in H. destruct (Znth pts a); [|easy].
    injection H as <-. rewrite zlen_mapi. lia. }
  assert (EL : forall a b p q, Znth pts a = Some p -> Znth pts b = Some q ->
    entry loc a b = Some (if a =? b then fz 0 else if a <? b then dist p q else dist q p)).
  { intros a b p q Ha Hb. unfold entry, loc, squareform_pdist. rewrite Znth_mapi, Ha. cbn [option_map].
    rewrite Znth_mapi, Hb. reflexivity. }
  assert (ER : forall a i, Znth V a = Some i -> Znth row a = Some (if existsb (Z.eqb i) close then PInf else fz 0)).
  { intros a i H. unfold row, V in *. destruct (Z.lt_ge_cases a (zlen close)).
    - rewrite Znth_app1 in H by auto. rewrite Znth_app1 by (rewrite zlen_map; auto). rewrite Znth_map, H. cbn.
      apply Znth_In in H. apply existsb_Zeq in H. now rewrite H.
    - rewrite Znth_app2 in H by auto. rewrite Znth_app2 by (rewrite zlen_map; auto). rewrite zlen_map, Znth_map, H. cbn.
      apply Znth_In, IA in H as [_ H]. destruct (existsb (Z.eqb i) close) eqn:E; auto. now apply existsb_Zeq in E. }
  set (M := map (fun rc : list fl * fl => fst rc ++ [snd rc]) (combine (loc ++ [row]) (row ++ [fz 0]))).
  assert (R1 : forall a r i, Znth loc a = Some r -> Znth V a = Some i ->
    Znth M a = Some (r ++ [if existsb (Z.eqb i) close then PInf else fz 0])).
  { intros a r i Hr Hi. unfold M. rewrite Znth_map. pose proof (Znth_Some_lt _ _ _ Hr).
    erewrite Znth_combine; [|rewrite Znth_app1 by lia; exact Hr|rewrite Znth_app1 by lia; apply ER; exact Hi]. reflexivity. }
  assert (R2 : Znth M (zlen V) = Some (row ++ [fz 0])).
  { unfold M. rewrite Znth_map. erewrite Znth_combine with (a := row) (b := fz 0).
    - reflexivity.
    - rewrite Znth_app2 by lia. replace (zlen V - zlen loc) with 0 by lia. reflexivity.
    - rewrite Znth_app2 by lia. replace (zlen V - zlen row) with 0 by lia. reflexivity. }
  assert (LM : zlen M = zlen V + 1).
  { unfold M. rewrite zlen_map. unfold zlen in *. rewrite combine_length, !app_length. cbn [length]. lia. }
  exists M. split; [reflexivity|]. unfold cone_entries. pose proof (zlen_nonneg V).
  assert (V2 : forall a, 0 <= a < zlen V -> exists i r p, Znth V a = Some i /\ Znth loc a = Some r /\ Znth pts a = Some p /\ Znth train i = Some p).
  { intros a Ha. destruct (Znth_ex V a) as [i Hi]; [lia|]. destruct (Znth_ex loc a) as [r Hr]; [lia|].
    destruct (Znth_ex pts a) as [p Hp]; [lia|]. exists i, r, p. repeat split; auto. exact (Forall2_Znth _ _ _ _ _ _ FP Hi Hp). }
  split.
  { split; auto. intros r I. apply In_Znth in I as (a & B & Ha). destruct (Z.eq_dec a (zlen V)) as [->|N].
    - rewrite R2 in Ha. injection Ha as <-. rewrite zlen_app, LR. reflexivity.
    - destruct (V2 a) as (i & r' & p & Hi & Hr & _); [lia|]. rewrite (R1 _ _ _ Hr Hi) in Ha. injection Ha as <-.
      rewrite zlen_app, (HL _ _ Hr). reflexivity. }
  split.
  { intros a b i j p q Hi Hj Hp Hq N. pose proof (Znth_Some_lt _ _ _ Hi). pose proof (Znth_Some_lt _ _ _ Hj).
    destruct (V2 a) as (i' & r & p' & Hi' & Hr & Hp' & Hti); [lia|]. destruct (V2 b) as (j' & r2 & q' & Hj' & _ & Hq' & Htj); [lia|].
    assert (i' = i) as -> by congruence. assert (j' = j) as -> by congruence.
    assert (p' = p) as -> by congruence. assert (q' = q) as -> by congruence.
    unfold entry. rewrite (R1 _ _ _ Hr Hi), Znth_app1 by (rewrite (HL _ _ Hr); lia).
    pose proof (EL _ _ _ _ Hp' Hq') as E. unfold entry in E. rewrite Hr in E. rewrite E.
    apply Z.eqb_neq in N. now rewrite N. }
  split.
  { intros a Ha. destruct (Z.eq_dec a (zlen V)) as [->|N].
    - unfold entry. rewrite R2, Znth_app2 by lia. replace (zlen V - zlen row) with 0 by lia. reflexivity.
    - destruct (V2 a) as (i & r & p & Hi & Hr & Hp & _); [lia|]. unfold entry.
      rewrite (R1 _ _ _ Hr Hi), Znth_app1 by (rewrite (HL _ _ Hr); lia).
      pose proof (EL _ _ _ _ Hp Hp) as E. unfold entry in E. rewrite Hr, Z.eqb_refl in E. exact E. }
  intros a i Hi. pose proof (Znth_Some_lt _ _ _ Hi). destruct (V2 a) as (i' & r & p & Hi' & Hr & _); [lia|].
  assert (i' = i) as -> by congruence. unfold entry. split.
  - rewrite (R1 _ _ _ Hr Hi), Znth_app2 by (rewrite (HL _ _ Hr); lia). rewrite (HL _ _ Hr), Z.sub_diag. reflexivity.
  - rewrite R2, Znth_app1 by lia. now apply ER.
Qed.

(** The matrix for a point with the given neighbours, for a symmetric metric: as documented for the
    neighbourhoods "close" and "close or relevant". *)
Theorem coned_matrix_spec train close relevant : (forall p q, dist p q = dist q p) -> NoDup close ->
  (forall k, In k close -> 0 <= k < zlen train) -> (forall k, In k relevant -> 0 <= k < zlen train) ->
  exists M, coned_matrix train close relevant = Ok M /\
    documented_matrix dist train (fun k => In k close) (fun k => In k close \/ In k relevant) M.
Proof.
  intros SY NC RC RR. destruct close as [|c close'] eqn:EC.
  { exists [[fz 0]]. split; [reflexivity|]. split; [intros (k & [])|reflexivity]. }
  rewrite <- EC in *. assert (NE : close <> []) by (rewrite EC; easy). clear EC.
  destruct (coned_entries train close relevant NC NE RC RR) as (M & E & SQ & E1 & E2 & E3).
  destruct (annulus_spec close relevant) as [NA IA].
  exists M. split; auto. split; [|intro H; destruct NE; destruct close as [|k l]; auto; destruct H; exists k; now left].
  intros _. exists (close ++ annulus close relevant).
  split. { clear - NC NA IA. 
    assert (D : forall k, In k close -> In k (annulus close relevant) -> False) by (intros k I J; apply IA in J; tauto).
    clear IA. revert NC D. generalize (annulus close relevant) as l, NA. clear.
    intros l NA. induction close as [|k c IH]; intros NC D; auto. inversion NC; subst. cbn. constructor.
    - intro I. apply in_app_or in I as [I|I]; auto. apply (D k); [now left|auto].
    - apply IH; auto. intros j I J. apply (D j); [now right|auto]. }
  split. { intro k. rewrite in_app_iff, IA. destruct (in_dec Z.eq_dec k close); tauto. }
  split; auto. split.
  { intros a b i j p q Hi Hj Hp Hq N. rewrite (E1 a b i j p q) by auto. destruct (a <? b); auto. now rewrite SY. }
  split; auto. split; intros a i Hi I; destruct (E3 a i Hi) as [A B]; rewrite A, B.
  - apply existsb_Zeq in I. now rewrite I.
  - destruct (existsb (Z.eqb i) close) eqn:X; auto. now apply existsb_Zeq in X.
Qed.

(** It is symmetric for every metric. *)
Theorem coned_matrix_symmetric train close relevant M : NoDup close ->
  (forall k, In k close -> 0 <= k < zlen train) -> (forall k, In k relevant -> 0 <= k < zlen train) ->
  coned_matrix train close relevant = Ok M -> forall a b, entry M a b = entry M b a.
Proof.
  intros NC RC RR E a b. destruct close as [|c close'] eqn:EC.
  { injection E as <-. unfold entry. destruct (Z.eq_dec a 0) as [->|Na], (Z.eq_dec b 0) as [->|Nb]; auto.
    - cbn. rewrite (Znth_None [fz 0] b), (Znth_None [[fz 0]] b); auto; unfold zlen; cbn; lia.
    - cbn. rewrite (Znth_None [fz 0] a), (Znth_None [[fz 0]] a); auto; unfold zlen; cbn; lia.
    - rewrite (Znth_None [[fz 0]] b), (Znth_None [[fz 0]] a); auto; unfold zlen; cbn; lia. }
  rewrite <- EC in *. assert (NE : close <> []) by (rewrite EC; easy). clear EC.
  destruct (coned_entries train close relevant NC NE RC RR) as (M' & E' & SQ & E1 & E2 & E3).
  rewrite E in E'. injection E' as <-. set (V := close ++ annulus close relevant) in *. pose proof (zlen_nonneg V).
  assert (OUT : forall a b, ~ (0 <= a <= zlen V /\ 0 <= b <= zlen V) -> entry M a b = None).
  { intros x y H'. destruct SQ as [S1 S2]. unfold entry. destruct (Znth M x) as [r|] eqn:Ex; auto.
    pose proof (Znth_Some_lt _ _ _ Ex). apply Znth_In, S2 in Ex. apply Znth_None. lia. }
  assert (D : (0 <= a <= zlen V /\ 0 <= b <= zlen V) \/ ~ (0 <= a <= zlen V /\ 0 <= b <= zlen V)) by lia.
  destruct D as [[Ha Hb]|N]; [|rewrite (OUT a b), (OUT b a); auto; lia].
  destruct (Z.eq_dec a b) as [->|N]; auto.
  assert (RV : forall k, In k V -> 0 <= k < zlen train).
  { intros k I. apply in_app_or in I as [I|I]; auto. apply annulus_spec in I. apply RR. tauto. }
  destruct (Z.eq_dec a (zlen V)) as [->|Na].
  - destruct (Znth_ex V b) as [i Hi]; [lia|]. destruct (E3 b i Hi) as [A B]. congruence.
  - destruct (Znth_ex V a) as [i Hi]; [lia|]. destruct (Z.eq_dec b (zlen V)) as [->|Nb].
    + destruct (E3 a i Hi) as [A B]. congruence.
    + destruct (Znth_ex V b) as [j Hj]; [lia|].
      destruct (Znth_ex train i) as [p Hp]; [apply RV; eapply Znth_In; eauto|].
      destruct (Znth_ex train j) as [q Hq]; [apply RV; eapply Znth_In; eauto|].
      rewrite (E1 a b i j p q), (E1 b a j i q p) by auto.
      destruct (Z.ltb_spec a b), (Z.ltb_spec b a); auto; lia.
Qed.

(** ** The whole transform *)
Lemma coned_good train close relevant M : (forall p q, dist p q <> NaN) -> NoDup close ->
  (forall k, In k close -> 0 <= k < zlen train) -> (forall k, In k relevant -> 0 <= k < zlen train) ->
  coned_matrix train close relevant = Ok M -> good_entry true None (as_array M).
Proof.
  intros NN NC RC RR E. destruct close as [|c close'] eqn:EC.
  { injection E as <-. split; [exists 1, 1; cbn; repeat split; lia|]. intros y [<-|[]]. easy. }
  rewrite <- EC in *. assert (NE : close <> []) by (rewrite EC; easy). clear EC.
  destruct (coned_entries train close relevant NC NE RC RR) as (M' & E' & SQ & E1 & E2 & E3).
  rewrite E in E'. injection E' as <-. set (V := close ++ annulus close relevant) in *. pose proof (zlen_nonneg V).
  assert (RV : forall k, In k V -> 0 <= k < zlen train).
  { intros k I. apply in_app_or in I as [I|I]; auto. apply annulus_spec in I. apply RR. tauto. }
  destruct SQ as [S1 S2]. split.
  - exists (zlen V + 1), (zlen V + 1). cbn [as_array a_shape a_kind]. rewrite S1. destruct M as [|r M].
    + unfold zlen in S1 at 1. cbn in S1. lia.
    + rewrite (S2 r) by (now left). repeat split; lia.
  - intros y I. cbn [as_array a_data] in I. apply in_concat in I as (r & Ir & Iy).
    apply In_Znth in Iy as (b & Bb & Hb). pose proof (S2 r Ir) as Lr. apply In_Znth in Ir as (a & Ba & Ha). cbn [allowed].
    assert (Ey : entry M a b = Some y) by (unfold entry; now rewrite Ha).
    destruct (Z.eq_dec a b) as [->|N].
    { rewrite E2 in Ey by lia. injection Ey as <-. easy. }
    destruct (Z.eq_dec a (zlen V)) as [->|Na].
    + destruct (Znth_ex V b) as [i Hi]; [lia|]. destruct (E3 b i Hi) as [_ B]. rewrite B in Ey. injection Ey as <-.
      now destruct (existsb (Z.eqb i) close).
    + destruct (Znth_ex V a) as [i Hi]; [lia|]. destruct (Z.eq_dec b (zlen V)) as [->|Nb].
      * destruct (E3 a i Hi) as [A _]. rewrite A in Ey. injection Ey as <-. now destruct (existsb (Z.eqb i) close).
      * destruct (Znth_ex V b) as [j Hj]; [lia|].
        destruct (Znth_ex train i) as [p Hp]; [apply RV; eapply Znth_In; eauto|].
        destruct (Znth_ex train j) as [q Hq]; [apply RV; eapply Znth_In; eauto|].
        rewrite (E1 a b i j p q) in Ey by auto. injection Ey as <-. destruct (a <? b); auto.
Qed.

Variable junk : pt.
Variable ripser : Z -> fl -> list (list fl) -> list (list (fl * fl)).
Notation local_transform := (local_transform dist set_order junk ripser).

(** The matrices are accepted by VietorisRipsPersistence, which gets one for each point, in order. *)
Lemma local_transform_ok dims train close relevant X : (forall p q, dist p q = dist q p) -> (forall p q, dist p q <> NaN) ->
  X <> [] -> (forall x, In x X -> NoDup (close x)) ->
  (forall x k, In x X -> In k (close x) -> 0 <= k < zlen train) -> (forall x k, In x X -> In k (relevant x) -> 0 <= k < zlen train) ->
  exists mats,
    Forall2 (fun x M => documented_matrix dist train (fun k => In k (close x)) (fun k => In k (close x) \/ In k (relevant x)) M) X mats /\
    local_transform dims train close relevant X = vr_fit_transform junk ripser dims PInf None true mats.
Proof.
  intros SY NN NE NC RC RR. unfold LocalModel.local_transform.
  assert (zlen X =? 0 = false) as ->.
  { apply Z.eqb_neq. destruct X; [easy|]. rewrite zlen_cons. pose proof (zlen_nonneg X). lia. }
  assert (EX : exists mats, mapM (fun x => coned_matrix train (close x) (relevant x)) X = Ok mats /\
    Forall2 (fun x M => documented_matrix dist train (fun k => In k (close x)) (fun k => In k (close x) \/ In k (relevant x)) M) X mats /\
    forall M, In M mats -> good_entry true None (as_array M)).
  { clear NE. induction X as [|x X IH]; [exists []; split; [reflexivity|split; [constructor|intros ? []]]|].
    destruct IH as (mats & E & F & G).
    { intros; apply NC; now right. } { intros y k I; apply RC; now right. } { intros y k I; apply RR; now right. }
    destruct (coned_matrix_spec train (close x) (relevant x) SY) as (M & EM & D).
    { apply NC; now left. } { intros k; apply RC; now left. } { intros k; apply RR; now left. }
    exists (M :: mats). cbn [mapM]. rewrite EM, E. cbn [bind]. split; auto. split; [constructor; auto|].
    intros M' [<-|I]; auto. apply (coned_good train (close x) (relevant x)); auto.
    { apply NC; now left. } { intros k; apply RC; now left. } { intros k; apply RR; now left. } }
  destruct EX as (mats & E & F & G). exists mats. split; auto. rewrite E. cbn [bind].
  assert (K : forall x, In x (map as_array mats) -> a_kind x <> Nested /\ (a_kind x = Sparse -> true = true /\ exists n m, a_shape x = [n; m])).
  { intros x I. apply in_map_iff in I as (M & <- & _). split; easy. }
  destruct (check_point_clouds_list (map as_array mats) true true None) as [[_ (w & _ & H)]|[B _]]; auto.
  - intro H. apply map_eq_nil in H. subst. inversion F. now subst.
  - destruct H as [[_ H]|[_ H]]; rewrite H; reflexivity.
  - destruct B. intros x I. apply in_map_iff in I as (M & <- & I). auto.
Qed.
Lemma documented_iff train (i1 l1 i2 l2 : Z -> Prop) M : (forall k, i1 k <-> i2 k) -> (forall k, l1 k <-> l2 k) ->
  documented_matrix dist train i1 l1 M -> documented_matrix dist train i2 l2 M.
Proof.
  intros HI HL [A B]. split.
  - intros (k & Hk). destruct A as (V & N & I & SQ & C1 & C2 & C3 & C4); [exists k; now apply HI|].
    exists V. split; auto. split; [intro; rewrite <- HL; apply I|]. split; auto. split; auto. split; auto.
    split; intros a i Ha H; [apply (C3 a i)|apply (C4 a i)]; auto; [now apply HI|]. intro; apply H. now apply HI.
  - intro H. apply B. intros (k & Hk). apply H. exists k. now apply HI.
Qed.
Lemma Forall2_imp_In {A B} (R S : A -> B -> Prop) l r : (forall a b, In a l -> R a b -> S a b) -> Forall2 R l r -> Forall2 S l r.
Proof. intros H F. induction F; constructor; auto; [apply H; [now left|auto]|apply IHF; intros; apply H; [now right|auto]]. Qed.

(** ** RadiusLocalVietorisRips *)
Section Radius.
Variable radius_neighbors : list P -> Qc -> P -> list Z.
(** What sklearn promises: the points at distance at most the radius, each once. *)
Hypothesis radius_sound : forall train r x, NoDup (radius_neighbors train r x) /\
  forall k, In k (radius_neighbors train r x) <-> within dist train x r k.
Notation r_transform := (r_transform dist set_order radius_neighbors junk ripser).

(** With radii r1 and r2, fitted on train: the neighbourhoods are the training points within the
    smaller and the larger radius. *)
Theorem radius_spec r1 r2 dims train X e : (forall p q, dist p q = dist q p) -> (forall p q, dist p q <> NaN) ->
  X <> [] -> r_fit (r_init (r1, r2)) train = Ok e ->
  exists mats,
    Forall2 (fun x M => documented_matrix dist train (within dist train x (if Qclt_le_dec r2 r1 then r2 else r1))
                          (within dist train x (if Qclt_le_dec r2 r1 then r1 else r2)) M) X mats /\
    r_transform dims e X = vr_fit_transform junk ripser dims PInf None true mats.
Proof.
  intros SY NN NE FT. unfold r_fit, r_init, r_base_fit in FT. cbn [r_radii r_params fst snd] in FT.
  set (np := if Qcltb r2 r1 then (r2, r1) else (r1, r2)) in FT.
  destruct (negb _) in FT; [easy|]. destruct (zlen train =? 0) in FT; [easy|]. injection FT as <-.
  assert (EN : np = (if Qclt_le_dec r2 r1 then r2 else r1, if Qclt_le_dec r2 r1 then r1 else r2)).
  { unfold np. destruct (Qcltb_spec r2 r1), (Qclt_le_dec r2 r1); auto; exfalso; qlra. }
  unfold LocalModel.r_transform. cbn [r_trained]. rewrite EN.
  set (a := if Qclt_le_dec r2 r1 then r2 else r1). set (b := if Qclt_le_dec r2 r1 then r1 else r2).
  assert (AB : (a <= b)%Qc) by (unfold a, b; destruct (Qclt_le_dec r2 r1); qlra).
  assert (RG : forall r x k, In k (radius_neighbors train r x) -> 0 <= k < zlen train).
  { intros r x k I. apply radius_sound in I as (p & Hp & _). eapply Znth_Some_lt; eauto. }
  destruct (local_transform_ok dims train (radius_neighbors train a) (radius_neighbors train b) X) as (mats & F & E); auto.
  { intros; apply radius_sound. } { intros; eapply RG; eauto. } { intros; eapply RG; eauto. }
  exists mats. split; auto. eapply Forall2_imp_In; [|exact F]. intros x M _. apply documented_iff.
  - intro k. apply radius_sound.
  - intro k. rewrite !(proj2 (radius_sound _ _ _)). split; [|tauto]. intros [(p & Hp & L)|]; auto. exists p. split; auto.
    eapply fle_trans; eauto. cbn. destruct (Qcleb_spec a b); auto.
Qed.

(** fit succeeds for non-negative radii and at least one point. *)
Theorem radius_fit_spec r1 r2 train :
  (exists e : rest P, r_fit (r_init (r1, r2)) train = Ok e) <-> (0 <= r1)%Qc /\ (0 <= r2)%Qc /\ train <> [] \/
    (* both radii 0 after sorting: the second is replaced before it is checked *)
    (0 <= r1)%Qc /\ (r2 < 0)%Qc /\ r1 = 0%Qc /\ train <> [].
Proof.
  unfold r_fit, r_init, r_base_fit. cbn [r_radii r_params fst snd]. rewrite qz_0, qz_1.
  assert (NE : zlen train =? 0 = false <-> train <> []).
  { destruct train as [|x t]; [split; easy|]. rewrite zlen_cons. pose proof (zlen_nonneg t). split; [easy|]. intros _. lia. }
  assert (NE' : zlen train =? 0 = true <-> train = []).
  { destruct train as [|x t]; [split; easy|]. rewrite zlen_cons. pose proof (zlen_nonneg t). split; [lia|easy]. }
  destruct (Qcltb_spec r2 r1); cbn [fst snd].
  - destruct (Qceqb_spec r1 0); cbn [fst snd].
    + destruct (Qcleb_spec 0 r1); [|exfalso; qlra]. destruct (Qcleb_spec 0 1); [|exfalso; qlra]. cbn [andb negb].
      destruct (zlen train =? 0).
      * split; [intros (e' & ?); easy|]. intros [(_ & _ & K)|(_ & _ & _ & K)]; destruct K; now apply NE'.
      * split; [|eauto]. intros _. right. repeat split; auto; [subst; auto|]. now apply NE.
    + destruct (Qcleb_spec 0 r1), (Qcleb_spec 0 r2); cbn [andb negb].
      2-4: split; [intros (e' & ?); easy|]; intros [(? & ? & K)|(? & ? & ? & K)]; easy.
      destruct (zlen train =? 0).
      * split; [intros (e' & ?); easy|]. intros [(_ & _ & K)|(_ & _ & _ & K)]; destruct K; now apply NE'.
      * split; [|eauto]. intros _. left. repeat split; auto. now apply NE.
  - destruct (Qceqb_spec r2 0); cbn [fst snd].
    + destruct (Qcleb_spec 0 r1); destruct (Qcleb_spec 0 1); try (exfalso; qlra); cbn [andb negb].
      * destruct (zlen train =? 0).
        -- split; [intros (e' & ?); easy|]. intros [(_ & _ & K)|(_ & _ & _ & K)]; destruct K; now apply NE'.
        -- split; [|eauto]. intros _. left. repeat split; auto; [subst; qlra|]. now apply NE.
      * split; [intros (e' & ?); easy|]; intros [(? & ? & K)|(? & ? & ? & K)]; easy.
    + destruct (Qcleb_spec 0 r1), (Qcleb_spec 0 r2); cbn [andb negb].
      2-4: split; [intros (e' & ?); easy|]; intros [(? & ? & K)|(? & ? & ? & K)]; try easy; exfalso; subst; qlra.
      destruct (zlen train =? 0).
      * split; [intros (e' & ?); easy|]. intros [(_ & _ & K)|(_ & _ & _ & K)]; destruct K; now apply NE'.
      * split; [|eauto]. intros _. left. repeat split; auto. now apply NE.
Qed.
End Radius.
End Local.
