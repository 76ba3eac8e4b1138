(** Interval implements interval arithmetic on the extended reals (C50). *)
From Coq Require Import Qround.
From Verif Require Import Np NpFacts Fl FlFacts IntervalModel.
Open Scope Z_scope.

(** ** Specification: the extended order, and the points of an interval *)
Definition ltx (x y : fl) : Prop :=
  match x, y with
  | NInf, Fin _ | NInf, PInf | Fin _, PInf => True
  | Fin a, Fin b => (a < b)%Qc
  | _, _ => False
  end.
(** [x] lies in the interval from l to r with the given closed sides. *)
Definition lies (x : fl) (i : interval) : Prop :=
  x <> NaN /\
  (ltx (iv_left i) x \/ (x = iv_left i /\ (iv_closed i = CLeft \/ iv_closed i = CBoth))) /\
  (ltx x (iv_right i) \/ (x = iv_right i /\ (iv_closed i = CRight \/ iv_closed i = CBoth))).
(** The intervals which the constructor accepts. *)
Definition proper (i : interval) : Prop :=
  iv_left i <> NaN /\ iv_right i <> NaN /\ (ltx (iv_left i) (iv_right i) \/ iv_left i = iv_right i).

Lemma flt_ltx x y : flt x y = true <-> ltx x y.
Proof. destruct x, y; cbn; try (split; easy). apply Qcltb_lt. Qed.
Lemma fle_ltx x y : fle x y = true <-> x <> NaN /\ y <> NaN /\ (ltx x y \/ x = y).
Proof.
  destruct x, y; cbn; try (split; [easy|intros [? [? [?|?]]]; easy]); try (split; [intros _; repeat split; try discriminate; auto|reflexivity]).
  rewrite Qcleb_le. split.
  - intros H. repeat split; try discriminate. destruct (Qcle_lt_or_eq _ _ H) as [ | -> ]; auto.
  - intros [_ [_ [H|H]]]; [now apply Qclt_le_weak|]. injection H as ->. apply Qcle_refl.
Qed.
Lemma feq_eq x y : feq x y = true <-> x <> NaN /\ x = y.
Proof.
  destruct x, y; cbn; try (split; [easy|intros [? ?]; easy]); try (split; [intros _; split; [discriminate|reflexivity]|reflexivity]).
  rewrite Qceqb_eq. split; [intros ->; split; [discriminate|reflexivity]|intros [_ H]; now injection H].
Qed.
Lemma ltx_trans x y z : ltx x y -> ltx y z -> ltx x z.
Proof. destruct x, y, z; cbn; try easy. apply Qclt_trans. Qed.
Lemma ltx_irrefl x : ~ ltx x x.
Proof. destruct x; cbn; try easy. intros H. now apply Qclt_not_eq in H. Qed.
Lemma ltx_total x y : x <> NaN -> y <> NaN -> ltx x y \/ x = y \/ ltx y x.
Proof.
  destruct x, y; cbn; try easy; auto. intros _ _. destruct (Qclt_le_dec q q0) as [|H]; [now left|].
  right. destruct (Qcle_lt_or_eq _ _ H) as [ | -> ]; auto.
Qed.
Lemma ltx_notnan x y : ltx x y -> x <> NaN /\ y <> NaN.
Proof. destruct x, y; cbn; easy. Qed.
Lemma ltx_dense x y : ltx x y -> exists z, ltx x z /\ ltx z y.
Proof.
  destruct x as [| |a|], y as [| |b|]; cbn; try easy.
  - intros _. exists (Fin (b - 1)). cbn. split; [easy|]. qlra.
  - intros _. exists (Fin 0). cbn. easy.
  - intros H. exists (Fin ((a + b) * Q2Qc (1 # 2))). cbn.
    assert (E : (Q2Qc (1 # 2) + Q2Qc (1 # 2) = 1)%Qc) by (apply Qc_is_canon; reflexivity). set (h := Q2Qc (1 # 2)) in *.
    assert (P : (0 < h)%Qc) by reflexivity. split; qnra.
  - intros _. exists (Fin (a + 1)). cbn. split; [|easy]. qlra.
Qed.

(** ** The constructor *)
Theorem interval_init_spec : forall left right closed i,
  interval_init left right closed = Ok i <->
  left = Some (iv_left i) /\ right = Some (iv_right i) /\ closed = Some (iv_closed i) /\ proper i.
Proof.
  intros left right closed [l r c]. unfold interval_init, proper. cbn [iv_left iv_right iv_closed]. split.
  - destruct left as [l'|]; [|discriminate]. destruct right as [r'|]; [|discriminate]. destruct closed as [c'|]; [|discriminate].
    destruct (fle l' r') eqn:E; [|discriminate]. cbn. intros H. injection H as -> -> ->. now apply fle_ltx in E.
  - intros [-> [-> [-> H]]]. apply fle_ltx in H. now rewrite H.
Qed.
Theorem interval_init_error : forall left right closed e, interval_init left right closed = Err e -> e = ValueError.
Proof.
  unfold interval_init. intros [l|] [r|] [c|] e; try (intros H; injection H; congruence). destruct (negb _); [|discriminate]. intros H; injection H; congruence.
Qed.
Example interval_init_ex : interval_init (Some NInf) (Some (fz 3)) (Some CRight) = Ok (MkInterval NInf (fz 3) CRight) /\
  interval_init (Some (fz 3)) (Some (fz 2)) (Some CRight) = Err ValueError.
Proof. split; vm_compute; reflexivity. Qed.

(** ** Membership and emptiness *)
Theorem interval_contains_spec : forall i x, proper i ->
  exists b, iv_contains i (OReal x) = Ok b /\ (b = true <-> lies x i).
Proof.
  intros i x [Nl [Nr _]]. unfold iv_contains. eexists. split; [reflexivity|]. rewrite andb_true_iff.
  unfold lies, open_left, open_right, closed_left, closed_right.
  destruct (iv_closed i); cbn [negb]; rewrite ?flt_ltx, ?fle_ltx; split.
  all: try (intros [H1 H2]; split; [first [apply ltx_notnan in H1; tauto | tauto]|]; split; intuition congruence).
  all: intros [Nx [[H1|[-> H1]] [H2|[H3 H2]]]]; try (destruct H1; discriminate); try (destruct H2; discriminate); subst; auto 6.
Qed.
Theorem interval_contains_rejects : forall i j, iv_contains i (OInterval j) = Err TypeError /\ iv_contains i OOther = Err TypeError.
Proof. intros. split; reflexivity. Qed.
Lemma lies_nonempty i : proper i -> (ltx (iv_left i) (iv_right i) \/ iv_closed i = CBoth) -> exists x, lies x i.
Proof.
  intros [Nl [Nr H]] C. destruct H as [H|H].
  - destruct (ltx_dense _ _ H) as [z [Z1 Z2]]. exists z. split; [apply (ltx_notnan _ _ Z1)|]. auto.
  - destruct C as [C|C]; [rewrite H in C; now apply ltx_irrefl in C|]. exists (iv_left i). split; [assumption|]. rewrite <- H. auto.
Qed.
Lemma lies_proper x i : lies x i -> ltx (iv_left i) (iv_right i) \/ (iv_left i = iv_right i /\ iv_closed i = CBoth).
Proof.
  intros [N [[H1|[-> H1]] [H2|[E H2]]]].
  - left. eapply ltx_trans; eassumption.
  - left. now rewrite <- E.
  - now left.
  - right. split; [assumption|]. destruct H1 as [H1|H1], H2 as [H2|H2]; congruence.
Qed.
Theorem interval_is_empty_spec : forall i, proper i -> (is_empty i = true <-> forall x, ~ lies x i).
Proof.
  intros i P. unfold is_empty. rewrite andb_true_iff, feq_eq. split.
  - intros [[_ E] C] x L. apply lies_proper in L as [L|[_ L]]; [rewrite E in L; now apply ltx_irrefl in L|]. now rewrite L in C.
  - intros H. destruct P as [Nl [Nr [P|P]]].
    + exfalso. destruct (lies_nonempty i) as [x L]; [unfold proper; auto|auto|]. now apply (H x).
    + split; [auto|]. destruct (iv_closed i) eqn:E; try reflexivity. exfalso.
      destruct (lies_nonempty i) as [x L]; [unfold proper; auto|auto|]. now apply (H x).
Qed.
Example interval_contains_ex : iv_contains (MkInterval (fz 0) PInf CLeft) (OReal (fz 0)) = Ok true /\
  iv_contains (MkInterval (fz 0) PInf CLeft) (OReal PInf) = Ok false /\ iv_contains (MkInterval (fz 0) PInf CBoth) (OReal NaN) = Ok false.
Proof. repeat split; vm_compute; reflexivity. Qed.

(** ** Intersection *)
Lemma lies_below x i : x <> NaN -> ltx (iv_left i) x -> ltx x (iv_right i) -> lies x i.
Proof. unfold lies. auto. Qed.
(** A common point is always seen; and two non-empty intervals which are said to
    intersect have a common point. *)
Theorem interval_intersects_spec : forall i j, proper i -> proper j ->
  exists b, iv_intersects i (OInterval j) = Ok b /\
  ((exists x, lies x i /\ lies x j) -> b = true) /\
  ((exists x, lies x i) -> (exists x, lies x j) -> b = true -> exists x, lies x i /\ lies x j).
Proof.
  intros i j Pi Pj. unfold iv_intersects. eexists. split; [reflexivity|]. split.
  - intros [x [[N [A1 A2]] [_ [B1 B2]]]].
    assert (G : forall l r (c1 c2 : bool), (ltx l x \/ x = l /\ c1 = true) -> (ltx x r \/ x = r /\ c2 = true) ->
      (if c1 && c2 then fle else flt) l r = true).
    { intros l r c1 c2 H1 H2. destruct H1 as [H1|[<- ->]], H2 as [H2|[<- ->]].
      - pose proof (ltx_trans _ _ _ H1 H2) as H. destruct (c1 && c2); [|now apply flt_ltx].
        apply fle_ltx. apply ltx_notnan in H as Q. tauto.
      - destruct (c1 && true); [apply fle_ltx; apply ltx_notnan in H1 as Q; tauto|now apply flt_ltx].
      - destruct (true && c2); [apply fle_ltx; apply ltx_notnan in H2 as Q; tauto|now apply flt_ltx].
      - cbn [andb]. apply fle_ltx. auto. }
    apply andb_true_iff. split; apply G; unfold closed_left, closed_right.
    + destruct A1 as [|[? C]]; [now left|right; split; [assumption|]]. now destruct C as [-> | ->].
    + destruct B2 as [|[? C]]; [now left|right; split; [assumption|]]. now destruct C as [-> | ->].
    + destruct B1 as [|[? C]]; [now left|right; split; [assumption|]]. now destruct C as [-> | ->].
    + destruct A2 as [|[? C]]; [now left|right; split; [assumption|]]. now destruct C as [-> | ->].
  - intros [x Lx] [y Ly] H. apply andb_true_iff in H as [H1 H2].
    apply lies_proper in Lx, Ly. destruct Pi as [Nil [Nir _]], Pj as [Njl [Njr _]].
    assert (CL : forall k, closed_left k = true <-> (iv_closed k = CLeft \/ iv_closed k = CBoth)).
    { intros k. unfold closed_left. destruct (iv_closed k); intuition discriminate. }
    assert (CR : forall k, closed_right k = true <-> (iv_closed k = CRight \/ iv_closed k = CBoth)).
    { intros k. unfold closed_right. destruct (iv_closed k); intuition discriminate. }
    (* a common end of the two intervals *)
    assert (W : forall l r (c1 c2 : bool), (if c1 && c2 then fle else flt) l r = true -> ltx l r \/ (l = r /\ c1 = true /\ c2 = true)).
    { intros l r [|] [|] W; cbn [andb] in W; try (left; now apply flt_ltx). apply fle_ltx in W as [_ [_ [W|W]]]; auto. }
    apply W in H1, H2. clear W. unfold lies. setoid_rewrite <- CL. setoid_rewrite <- CR.
    assert (B : forall k, iv_closed k = CBoth -> closed_left k = true /\ closed_right k = true).
    { intros k E. rewrite CL, CR. auto. }
    destruct Lx as [Lx|[Ex Cx]].
    + destruct Ly as [Ly|[Ey Cy]].
      * (* both of positive length: the larger left end and the smaller right end *)
        destruct H1 as [H1|[H1 [K1 K2]]]; [destruct H2 as [H2|[H2 [K1 K2]]]|].
        -- set (l := if flt (iv_left i) (iv_left j) then iv_left j else iv_left i).
           set (r := if flt (iv_right i) (iv_right j) then iv_right i else iv_right j).
           assert (Q : ltx l r). { unfold l, r. destruct (flt (iv_left i) (iv_left j)), (flt (iv_right i) (iv_right j)); assumption. }
           assert (LL : forall z, ltx l z -> ltx (iv_left i) z /\ ltx (iv_left j) z).
           { intros z. unfold l. destruct (flt _ _) eqn:E; intros Z.
             - apply flt_ltx in E. split; [eapply ltx_trans; eassumption|assumption].
             - split; [assumption|]. destruct (ltx_total (iv_left i) (iv_left j) Nil Njl) as [T|[T|T]]; [apply flt_ltx in T; congruence|now rewrite <- T|eapply ltx_trans; eassumption]. }
           assert (RR : forall z, ltx z r -> ltx z (iv_right i) /\ ltx z (iv_right j)).
           { intros z. unfold r. destruct (flt (iv_right i) (iv_right j)) eqn:E; intros Z.
             - apply flt_ltx in E. split; [assumption|eapply ltx_trans; eassumption].
             - split; [|assumption]. destruct (ltx_total (iv_right i) (iv_right j) Nir Njr) as [T|[T|T]]; [apply flt_ltx in T; congruence|now rewrite T|eapply ltx_trans; eassumption]. }
           destruct (ltx_dense _ _ Q) as [z [Z1 Z2]]. exists z. apply LL in Z1 as [Z1 Z1']. apply RR in Z2 as [Z2 Z2'].
           pose proof (proj2 (ltx_notnan _ _ Z1)). auto 8.
        -- exists (iv_left j). rewrite H2 at 3. split; (split; [assumption|]); split; auto. left. now rewrite H2.
        -- exists (iv_left i). split; (split; [assumption|]); split; auto. left. now rewrite H1.
      * destruct (B _ Cy) as [B1 B2]. exists (iv_left j). split; (split; [assumption|]); split; auto.
        -- destruct H1 as [H1|[H1 [K1 K2]]]; [left; now rewrite Ey|right; split; [congruence|assumption]].
        -- destruct H2 as [H2|[H2 [K1 K2]]]; auto.
    + destruct (B _ Cx) as [B1 B2]. exists (iv_left i). split; (split; [assumption|]); split; auto.
      * destruct H2 as [H2|[H2 [K1 K2]]]; [left; now rewrite Ex|right; split; [congruence|assumption]].
      * destruct H1 as [H1|[H1 [K1 K2]]]; auto.
Qed.
(** An empty interval may be said to intersect another one. *)
Theorem interval_intersects_empty_refuted : exists i j, proper i /\ proper j /\
  iv_intersects i (OInterval j) = Ok true /\ forall x, ~ lies x i.
Proof.
  exists (MkInterval (fz 1) (fz 1) CNeither), (MkInterval (fz 0) (fz 2) CBoth).
  assert (P : proper (MkInterval (fz 1) (fz 1) CNeither)) by (repeat split; try discriminate; now right).
  split; [exact P|]. split; [repeat split; try discriminate; left; reflexivity|]. split; [vm_compute; reflexivity|].
  apply (proj1 (interval_is_empty_spec _ P)). reflexivity.
Qed.
Example interval_intersects_ex :
  iv_intersects (MkInterval (fz 0) (fz 1) CBoth) (OInterval (MkInterval (fz 1) (fz 2) CBoth)) = Ok true /\
  iv_intersects (MkInterval (fz 0) (fz 1) CBoth) (OInterval (MkInterval (fz 1) (fz 2) CRight)) = Ok false.
Proof. split; vm_compute; reflexivity. Qed.
Print Assumptions interval_intersects_spec.

(** ** Arithmetic *)
(** An increasing bijection of the extended reals carries the points of an
    interval to those of the image interval. *)
Lemma lies_image (f : fl -> fl) i :
  (forall x, x <> NaN -> f x <> NaN) -> (forall x y, x <> NaN -> y <> NaN -> (ltx (f x) (f y) <-> ltx x y)) ->
  (forall x y, x <> NaN -> y <> NaN -> (f x = f y <-> x = y)) -> proper i ->
  proper (MkInterval (f (iv_left i)) (f (iv_right i)) (iv_closed i)) /\
  forall x, x <> NaN -> (lies (f x) (MkInterval (f (iv_left i)) (f (iv_right i)) (iv_closed i)) <-> lies x i).
Proof.
  intros F1 F2 F3 [Nl [Nr P]]. split.
  - split; [now apply F1|]. split; [now apply F1|]. cbn [iv_left iv_right]. rewrite F2, F3 by assumption. assumption.
  - intros x Nx. unfold lies. cbn [iv_left iv_right iv_closed]. rewrite !F2, !F3 by assumption. specialize (F1 x Nx). tauto.
Qed.
Lemma fadd_fin x q : x <> NaN -> fadd x (Fin q) <> NaN.
Proof. destruct x; cbn; easy. Qed.
Lemma fadd_ltx x y q : x <> NaN -> y <> NaN -> (ltx (fadd x (Fin q)) (fadd y (Fin q)) <-> ltx x y).
Proof. destruct x, y; cbn; try easy. intros _ _. split; intros H; qlra. Qed.
Lemma fadd_inj x y q : x <> NaN -> y <> NaN -> (fadd x (Fin q) = fadd y (Fin q) <-> x = y).
Proof.
  destruct x as [| |a|], y as [| |b|]; cbn [fadd]; try easy; intros _ _; (split; [|congruence]); try discriminate; try reflexivity. intros H0.
  assert (H : (a + q = b + q)%Qc) by congruence.
  f_equal. apply (f_equal (fun z => z - q)%Qc) in H. ring_simplify in H. exact H.
Qed.
(** Adding a finite number translates the interval. *)
Theorem interval_add_spec : forall i q, proper i ->
  exists j, iv_add i (OReal (Fin q)) = Ok j /\ iv_closed j = iv_closed i /\ proper j /\
  forall x, x <> NaN -> (lies (fadd x (Fin q)) j <-> lies x i).
Proof.
  intros i q P. destruct (lies_image (fun x => fadd x (Fin q)) i) as [Q H]; auto using fadd_fin, fadd_ltx, fadd_inj.
  exists (MkInterval (fadd (iv_left i) (Fin q)) (fadd (iv_right i) (Fin q)) (iv_closed i)). split; [|auto].
  apply interval_init_spec. auto.
Qed.
Lemma fsub_fadd x q : fsub x (Fin q) = fadd x (Fin (- q)).
Proof. reflexivity. Qed.
Theorem interval_sub_spec : forall i q, proper i ->
  exists j, iv_sub i (OReal (Fin q)) = Ok j /\ iv_closed j = iv_closed i /\ proper j /\
  forall x, x <> NaN -> (lies (fsub x (Fin q)) j <-> lies x i).
Proof. intros i q P. apply (interval_add_spec i (- q)%Qc P). Qed.
Theorem interval_sub_add : forall i j q, proper i -> iv_add i (OReal (Fin q)) = Ok j -> iv_sub j (OReal (Fin q)) = Ok i.
Proof.
  intros i j q P E. unfold iv_add in E. apply interval_init_spec in E as [E1 [E2 [E3 _]]].
  unfold iv_sub. apply interval_init_spec. injection E1 as <-. injection E2 as <-. injection E3 as <-.
  assert (G : forall x, fsub (fadd x (Fin q)) (Fin q) = x). { intros [| |a|]; cbn; try reflexivity. f_equal. ring. }
  rewrite !G. auto.
Qed.

Lemma fmul_fin x q : (0 < q)%Qc -> x <> NaN ->
  fmul x (Fin q) = match x with Fin a => Fin (a * q) | NInf => NInf | PInf => PInf | NaN => NaN end.
Proof.
  intros H. assert (S : fsign (Fin q) = 1). { cbn. destruct (Qccompare q 0) eqn:E; try reflexivity; exfalso.
    - apply Qceq_alt in E. subst. now apply Qclt_not_eq in H.
    - apply Qclt_alt in E. now apply (Qclt_not_le _ _ E), Qclt_le_weak. }
  destruct x; cbn [fmul]; try rewrite S; easy.
Qed.
Lemma fmul_nan x q : (0 < q)%Qc -> x <> NaN -> fmul x (Fin q) <> NaN.
Proof. intros H N. rewrite fmul_fin by assumption. destruct x; easy. Qed.
Lemma fmul_ltx x y q : (0 < q)%Qc -> x <> NaN -> y <> NaN -> (ltx (fmul x (Fin q)) (fmul y (Fin q)) <-> ltx x y).
Proof.
  intros H N1 N2. rewrite !fmul_fin by assumption. destruct x as [| |a|], y as [| |b|]; cbn; try easy. split; intros L.
  - apply Qcnot_le_lt. intros C. apply (Qclt_not_le _ _ L). apply Qcmult_le_compat_r; [assumption|now apply Qclt_le_weak].
  - now apply Qcmult_lt_compat_r.
Qed.
Lemma fmul_inj x y q : (0 < q)%Qc -> x <> NaN -> y <> NaN -> (fmul x (Fin q) = fmul y (Fin q) <-> x = y).
Proof.
  intros H N1 N2. split; [|congruence]. rewrite !fmul_fin by assumption. destruct x as [| |a|], y as [| |b|]; try easy. intros E0. assert (E : (a * q = b * q)%Qc) by congruence.
  f_equal. assert (K : q <> 0%Qc) by (intros ->; now apply Qclt_not_eq in H).
  rewrite <- (Qcmult_1_r a), <- (Qcmult_1_r b), <- (Qcmult_inv_r q K), !Qcmult_assoc. now rewrite E.
Qed.
(** Multiplying by a positive number scales the interval. *)
Theorem interval_mul_spec : forall i q, (0 < q)%Qc -> proper i ->
  exists j, iv_mul i (OReal (Fin q)) = Ok j /\ iv_closed j = iv_closed i /\ proper j /\
  forall x, x <> NaN -> (lies (fmul x (Fin q)) j <-> lies x i).
Proof.
  intros i q Hq P. destruct (lies_image (fun x => fmul x (Fin q)) i) as [Q H]; auto using fmul_nan, fmul_ltx, fmul_inj.
  exists (MkInterval (fmul (iv_left i) (Fin q)) (fmul (iv_right i) (Fin q)) (iv_closed i)). split; [|auto].
  apply interval_init_spec. auto.
Qed.
(** Multiplying a non-degenerate finite interval by a negative number is refused:
    the ends are not swapped. *)
Theorem interval_mul_negative : forall a b c q, (a < b)%Qc -> (q < 0)%Qc ->
  iv_mul (MkInterval (Fin a) (Fin b) c) (OReal (Fin q)) = Err ValueError.
Proof.
  intros a b c q Hab Hq. cbn. unfold interval_init. cbn.
  destruct (Qcleb (a * q) (b * q)) eqn:E; [|reflexivity]. exfalso. apply Qcleb_le in E.
  assert (Q : (0 < - q)%Qc) by qlra. pose proof (Qcmult_lt_compat_r _ _ _ Q Hab) as L.
  assert (E1 : (a * - q = - (a * q))%Qc) by ring. assert (E2 : (b * - q = - (b * q))%Qc) by ring. rewrite E1, E2 in L.
  set (u := (a * q)%Qc) in *. set (v := (b * q)%Qc) in *. clearbody u v. qlra.
Qed.
(** Multiplying a finite interval by zero gives {0} with the same closure. *)
Theorem interval_mul_zero : forall a b c, 
  exists j, iv_mul (MkInterval (Fin a) (Fin b) c) (OReal f0) = Ok j /\ forall x, lies x j <-> (x = f0 /\ c = CBoth).
Proof.
  intros a b c. cbn. unfold interval_init. cbn. rewrite !Qcmult_0_r. exists (MkInterval f0 f0 c). split; [reflexivity|].
  intros x. unfold lies. cbn [iv_left iv_right iv_closed]. split.
  - intros [N [[H1|[-> H1]] [H2|[E H2]]]].
    + exfalso. apply (ltx_irrefl f0). eapply ltx_trans; eassumption.
    + subst x. now apply ltx_irrefl in H1.
    + now apply ltx_irrefl in H2.
    + split; [reflexivity|]. destruct H1 as [-> | ->], H2 as [H2|H2]; congruence.
  - intros [-> ->]. split; [discriminate|auto].
Qed.
(** Dividing by a positive number is multiplying by its inverse; division by zero raises. *)
Theorem interval_truediv_spec : forall i q, (0 < q)%Qc -> proper i ->
  iv_truediv i (OReal (Fin q)) = iv_mul i (OReal (Fin (/ q))).
Proof.
  intros i q Hq [Nl [Nr _]]. assert (K : q <> 0%Qc) by (intros ->; now apply Qclt_not_eq in Hq).
  assert (Hi : (0 < / q)%Qc).
  { apply Qcnot_le_lt. intros C. pose proof (Qcmult_le_compat_r _ _ q C (Qclt_le_weak _ _ Hq)) as M.
    rewrite (Qcmult_comm (/ q)), Qcmult_inv_r, Qcmult_0_l in M by assumption. discriminate M || (now apply M). }
  assert (E : feq (Fin q) f0 = false) by (destruct (feq (Fin q) f0) eqn:E; [apply feq_eq in E as [_ E]; injection E as E; contradiction|reflexivity]).
  assert (D : forall x, x <> NaN -> fdiv x (Fin q) = fmul x (Fin (/ q))).
  { intros x N. rewrite fmul_fin by assumption. destruct x as [| |a|]; cbn [fdiv]; try contradiction.
    - assert (S : fsign (Fin q) = 1). { cbn. destruct (Qccompare q 0) eqn:E'; try reflexivity; exfalso.
        - apply Qceq_alt in E'. contradiction.
        - apply Qclt_alt in E'. now apply (Qclt_not_le _ _ E'), Qclt_le_weak. }
      rewrite S. reflexivity.
    - cbn in E. rewrite E. reflexivity.
    - assert (S : fsign (Fin q) = 1). { cbn. destruct (Qccompare q 0) eqn:E'; try reflexivity; exfalso.
        - apply Qceq_alt in E'. contradiction.
        - apply Qclt_alt in E'. now apply (Qclt_not_le _ _ E'), Qclt_le_weak. }
      rewrite S. reflexivity. }
  unfold iv_truediv, iv_mul, py_div. rewrite E. cbn [bind]. now rewrite !D.
Qed.
Theorem interval_div_zero : forall i, iv_truediv i (OReal f0) = Err ZeroDivisionError /\ iv_floordiv i (OReal f0) = Err ZeroDivisionError.
Proof. intros. split; reflexivity. Qed.
(** Floor division of a finite closed interval contains the floor division of each of its points. *)
Theorem interval_floordiv_spec : forall a b q, (0 < q)%Qc -> (a <= b)%Qc ->
  exists j, iv_floordiv (MkInterval (Fin a) (Fin b) CBoth) (OReal (Fin q)) = Ok j /\
  iv_left j = fz (Qfloor (this (a / q)%Qc)) /\ iv_right j = fz (Qfloor (this (b / q)%Qc)) /\
  forall x, (a <= x)%Qc -> (x <= b)%Qc -> lies (fz (Qfloor (this (x / q)%Qc))) j.
Proof.
  intros a b q Hq Hab. assert (K : q <> 0%Qc) by (intros ->; now apply Qclt_not_eq in Hq).
  assert (E : feq (Fin q) f0 = false) by (destruct (feq (Fin q) f0) eqn:E; [apply feq_eq in E as [_ E]; injection E as E; contradiction|reflexivity]).
  assert (Hi : (0 <= / q)%Qc).
  { apply Qcnot_lt_le. intros C. pose proof (Qcmult_lt_compat_r _ _ q Hq C) as M.
    rewrite (Qcmult_comm (/ q)), Qcmult_inv_r, Qcmult_0_l in M by assumption. discriminate M. }
  assert (M : forall x y, (x <= y)%Qc -> Qfloor (this (x / q)%Qc) <= Qfloor (this (y / q)%Qc)).
  { intros x y H. apply Qfloor_resp_le. apply (Qcmult_le_compat_r x y (/ q) H Hi). }
  assert (F : forall m n, m <= n -> ltx (fz m) (fz n) \/ fz m = fz n).
  { intros m n H. destruct (Z.eq_dec m n) as [->|]; [now right|]. left. cbn. apply (proj2 (qz_lt m n)). lia. }
  unfold iv_floordiv, py_floordiv. rewrite E. cbn [bind iv_left iv_right iv_closed ffloordiv].
  exists (MkInterval (fz (Qfloor (this (a / q)%Qc))) (fz (Qfloor (this (b / q)%Qc))) CBoth). split; [|split; [reflexivity|split; [reflexivity|]]].
  - apply interval_init_spec. cbn [iv_left iv_right iv_closed]. repeat (split; [reflexivity|]). split; [discriminate|]. split; [discriminate|]. apply F, M, Hab.
  - intros x H1 H2. split; [discriminate|]. cbn [iv_left iv_right iv_closed]. split.
    + destruct (F _ _ (M _ _ H1)); auto.
    + destruct (F _ _ (M _ _ H2)); auto.
Qed.
(** The number cannot be the left operand, and an Interval cannot be pickled or copied. *)
Theorem interval_left_operand_refuted : forall x i,
  py_binop iv_add (OReal x) (OInterval i) = Err TypeError /\ py_binop iv_mul (OReal x) (OInterval i) = Err TypeError.
Proof. intros. split; reflexivity. Qed.
(** Only numbers can be added, subtracted, multiplied or divided by. *)
Theorem interval_operand_errors : forall i y, (forall x, y <> OReal x) ->
  iv_add i y = Err TypeError /\ iv_sub i y = Err TypeError /\ iv_mul i y = Err TypeError /\
  iv_truediv i y = Err TypeError /\ iv_floordiv i y = Err TypeError.
Proof. intros i y H. destruct y; try (exfalso; eapply H; reflexivity); repeat split. Qed.
Theorem interval_pickle_refuted : forall i, unpickle (iv_reduce i) = Err TypeError.
Proof. reflexivity. Qed.
(** The middle of a finite interval with distinct ends lies in it, half-way. *)
Theorem interval_mid_length : forall a b c, (a < b)%Qc -> exists m d,
  iv_mid (MkInterval (Fin a) (Fin b) c) = Fin m /\ iv_length (MkInterval (Fin a) (Fin b) c) = Fin d /\
  (b = a + d /\ m - a = b - m /\ a < m /\ m < b)%Qc.
Proof.
  intros a b c H. exists (Q2Qc (1 # 2) * (a + b))%Qc, (b + - a)%Qc. split; [reflexivity|]. split; [reflexivity|].
  assert (E : (Q2Qc (1 # 2) + Q2Qc (1 # 2) = 1)%Qc) by (apply Qc_is_canon; reflexivity).
  assert (P : (0 < Q2Qc (1 # 2))%Qc) by reflexivity. set (h := Q2Qc (1 # 2)) in *. clearbody h.
  assert (A : (a = h * a + h * a)%Qc) by (rewrite <- Qcmult_plus_distr_l, E; ring).
  assert (B : (b = h * b + h * b)%Qc) by (rewrite <- Qcmult_plus_distr_l, E; ring).
  split; [ring|]. split; [|split; qnra].
  rewrite A at 2. rewrite B at 2. ring.
Qed.
Example interval_arith_ex :
  (exists j, iv_add (MkInterval (fz 0) PInf CLeft) (OReal (fz 5)) = Ok j /\ iv_left j = fz 5 /\ iv_right j = PInf) /\
  iv_add (MkInterval NInf (fz 0) CLeft) (OReal PInf) = Err ValueError.
Proof. split; [eexists; split; [reflexivity|split; [|reflexivity]]; cbn; unfold fz; f_equal; apply Qc_is_canon; reflexivity|reflexivity]. Qed.
Print Assumptions interval_mul_spec.
