(** Lemmas about check_diagrams and post-processing. *)
From Verif Require Import Np NpFacts Fl FlFacts TSProofs DiagTypes DiagModel DiagSpec DiagProofs.
Open Scope Z_scope.

(** *** np_unique *)
Lemma insert_unique_In x l y : isnan x = false -> In y (insert_unique x l) <-> y = x \/ In y l.
Proof.
  intros Hx. induction l as [|z l IH]; cbn [insert_unique].
  - simpl. intuition.
  - destruct (feq x z) eqn:E.
    + apply feq_eq in E. subst z. simpl. intuition.
    + destruct (flt x z); simpl; [intuition|]. rewrite IH. intuition.
Qed.
Lemma np_unique_In l y : (forall x, In x l -> isnan x = false) -> In y (np_unique l) <-> In y l.
Proof.
  intros H. induction l as [|x l IH]; [reflexivity|]. cbn [np_unique fold_right]. fold (np_unique l).
  rewrite insert_unique_In by (apply H; now left). rewrite IH by (intros; apply H; now right). simpl. intuition.
Qed.
Lemma increasing_cons x l : increasing l -> (forall y, In y l -> flt x y = true) -> increasing (x :: l).
Proof.
  intros H Hx i j a b Hij Ha Hb. rewrite Znth_cons in Hb by lia.
  destruct (Z.eq_dec i 0) as [->|].
  - rewrite Znth_0 in Ha. injection Ha as <-. apply Hx. eapply Znth_In; eauto.
  - rewrite Znth_cons in Ha by lia. apply (H (i - 1) (j - 1)); [lia|assumption..].
Qed.
Lemma increasing_inv x l : increasing (x :: l) -> increasing l /\ forall y, In y l -> flt x y = true.
Proof.
  intros H. split.
  - intros i j a b Hij Ha Hb. apply (H (i + 1) (j + 1)); [lia| |]; rewrite Znth_cons by lia;
      [rewrite <- Ha|rewrite <- Hb]; f_equal; lia.
  - intros y Hy. apply In_Znth in Hy. destruct Hy as [i [Hi Hy]].
    apply (H 0 (i + 1)); [lia|reflexivity|]. rewrite Znth_cons by lia. rewrite <- Hy. f_equal; lia.
Qed.
Lemma increasing_nil : increasing [].
Proof. intros i j a b _ Ha. apply Znth_In in Ha. destruct Ha. Qed.
Lemma insert_unique_inc x l : isnan x = false -> (forall y, In y l -> isnan y = false) ->
  increasing l -> increasing (insert_unique x l).
Proof.
  intros Hx. induction l as [|z l IH]; intros Hn Hl; cbn [insert_unique].
  - apply increasing_cons; [apply increasing_nil|easy].
  - destruct (feq x z) eqn:E; [assumption|]. apply increasing_inv in Hl. destruct Hl as [H1 H2].
    destruct (flt x z) eqn:F.
    + apply increasing_cons; [now apply increasing_cons|]. intros y [<-|Hy]; [assumption|].
      eapply flt_trans; eauto.
    + apply increasing_cons.
      * apply IH; [|assumption]. intros; apply Hn; now right.
      * intros y Hy. apply insert_unique_In in Hy; [|assumption]. destruct Hy as [->|Hy]; [|auto].
        assert (Hz := Hn z (or_introl eq_refl)).
        assert (G := flt_false _ _ Hx Hz F). destruct (flt z x) eqn:G2; [reflexivity|].
        assert (G3 := flt_false _ _ Hz Hx G2). rewrite (fle_antisym _ _ G G3), feq_refl in E by assumption. discriminate.
Qed.
Lemma np_unique_inc l : (forall x, In x l -> isnan x = false) -> increasing (np_unique l).
Proof.
  intros H. induction l as [|x l IH]; [apply increasing_nil|]. cbn [np_unique fold_right]. fold (np_unique l).
  assert (H' : forall y, In y l -> isnan y = false) by (intros; apply H; now right).
  apply insert_unique_inc; [apply H; now left| |auto].
  intros y Hy. rewrite np_unique_In in Hy by assumption. auto.
Qed.
(** NaN values also stay in the result *)
Lemma insert_unique_In2 x l y : In y (insert_unique x l) -> y = x \/ In y l.
Proof.
  induction l as [|z l IH]; cbn [insert_unique]; [simpl; intuition|].
  destruct (feq x z); [auto|]. destruct (flt x z); simpl; [intuition|].
  intros [->|H]; [auto|]. apply IH in H. intuition.
Qed.
Lemma insert_unique_mem x l : In x (insert_unique x l).
Proof.
  induction l as [|z l IH]; cbn [insert_unique]; [now left|].
  destruct (feq x z) eqn:E; [apply feq_eq in E; now left|]. destruct (flt x z); [now left|now right].
Qed.
Lemma insert_unique_keep x l y : In y l -> In y (insert_unique x l).
Proof.
  induction l as [|z l IH]; [easy|]. cbn [insert_unique]. intros H.
  destruct (feq x z) eqn:E; [assumption|]. destruct (flt x z); [now right|].
  destruct H as [->|H]; [now left|right; auto].
Qed.
Lemma np_unique_In' l y : In y (np_unique l) <-> In y l.
Proof.
  induction l as [|x l IH]; [reflexivity|]. cbn [np_unique fold_right]. fold (np_unique l). split.
  - intros H. apply insert_unique_In2 in H. destruct H as [->|H]; [now left|right; now apply IH].
  - intros [->|H]; [apply insert_unique_mem|]. apply insert_unique_keep. now apply IH.
Qed.

(** *** check_diagrams *)
Lemma mapM_unit_ok {A} (f : A -> res unit) l :
  (exists r, mapM f l = Ok r) <-> forall x, In x l -> f x = Ok tt.
Proof.
  split.
  - intros [r Hr] x Hx. apply mapM_Ok_inv in Hr. apply In_Znth in Hx. destruct Hx as [i [Hi Hx]].
    assert (E := Forall2_zlen _ _ _ Hr). destruct (Znth_ex r i ltac:(lia)) as [u Hu].
    rewrite (Forall2_Znth _ _ _ _ _ _ Hr Hx Hu). now destruct u.
  - intros H. exists (map (fun _ => tt) l). now apply mapM_Ok.
Qed.
Lemma mapM_Err_in {A B} (f : A -> res B) l e : mapM f l = Err e -> exists x, In x l /\ f x = Err e.
Proof.
  induction l as [|x l IH]; [discriminate|]. cbn [mapM]. destruct (f x) eqn:E; cbn [bind].
  - destruct (mapM f l) eqn:E2; cbn [bind]; [discriminate|]. intros [= <-].
    destruct (IH eq_refl) as [y [Hy1 Hy2]]. exists y. split; [now right|assumption].
  - intros [= <-]. exists x. split; [now left|assumption].
Qed.

Lemma check_dim_ok n q :
  check_dim n q = Ok tt <-> (q = PInf /\ n = 1) \/ is_dim_label q.
Proof.
  unfold check_dim. destruct q; cbn [feq].
  - split; [discriminate|]. intros [[H _]|[k [_ H]]]; discriminate.
  - split; [discriminate|]. intros [[H _]|[k [_ H]]]; discriminate.
  - set (t := Z.quot (Qnum q) (Zpos (Qden q))).
    change (match fz t with Fin b => Qceqb q b | _ => false end) with (feq (Fin q) (fz t)). split.
    + destruct (feq (Fin q) (fz t)) eqn:E; cbn [negb orb]; [|discriminate]. apply feq_eq in E.
      rewrite E, f0_fz, flt_fz. destruct (Z.ltb_spec t 0); [discriminate|]. intros _. right. exists t. auto.
    + intros [[H _]|[k [Hk H]]]; [discriminate|].
      assert (Eq : q = qz k) by (rewrite fz_qz in H; congruence).
      assert (Et : t = k).
      { unfold t. rewrite Eq. change (this (qz k)) with (Qred (inject_Z k)).
        unfold inject_Z. replace (Qred (k # 1)) with (k # 1).
        - cbn [Qnum Qden]. apply Z.quot_1_r.
        - unfold Qred. pose proof (Z.ggcd_gcd k 1) as G1. pose proof (Z.ggcd_correct_divisors k 1) as G2.
          destruct (Z.ggcd k (Zpos 1)) as [g [a b]]. cbn [fst snd] in *. rewrite Z.gcd_1_r in G1. subst g.
          destruct G2 as [Ga Gb]. replace a with k by lia. replace b with 1 by lia. reflexivity. }
      rewrite Et, H, f0_fz, feq_fz, flt_fz, Z.eqb_refl. cbn [negb orb].
      destruct (Z.ltb_spec k 0); [lia|reflexivity].
  - split.
    + destruct (Z.eqb_spec n 1); cbn [negb]; [auto|discriminate].
    + intros [[_ ->]|[k [_ H]]]; [reflexivity|discriminate].
Qed.
Lemma check_dim_err n q e : check_dim n q = Err e -> e = ValueError \/ e = OverflowError /\ q = NInf.
Proof.
  unfold check_dim. destruct q; cbn [feq].
  - intros [= <-]; auto.
  - intros [= <-]; auto.
  - destruct (_ || _); [intros [= <-]; auto|discriminate].
  - destruct (negb _); [intros [= <-]; auto|discriminate].
Qed.

Lemma zlen_flatten D : zlen (flatten D) = zlen (concat D) * 3.
Proof.
  unfold flatten. rewrite flat_map_concat_map.
  rewrite (zlen_concat_uniform _ 3), zlen_map; [reflexivity|].
  intros r Hr. apply in_map_iff in Hr. destruct Hr as [p [<- _]]. reflexivity.
Qed.
Lemma Znth_flatten D k p j : Znth (concat D) k = Some p -> 0 <= j < 3 ->
  Znth (flatten D) (3 * k + j) = Znth [pb p; pd p; pq p] j.
Proof.
  intros Hk Hj. unfold flatten. rewrite flat_map_concat_map. replace (3 * k + j) with (k * 3 + j) by lia.
  apply Znth_concat_uniform; [| |assumption].
  - intros r Hr. apply in_map_iff in Hr. destruct Hr as [p' [<- _]]. reflexivity.
  - now rewrite Znth_map, Hk.
Qed.
Lemma row3_flatten D k p : Znth (concat D) k = Some p -> row3 (flatten D) k = p.
Proof.
  intros H. unfold row3. rewrite !(Znth_flatten D k p) by (assumption || lia). now destruct p.
Qed.
Lemma rows_of_flatten D n m :
  zlen D = n -> (forall x, In x D -> zlen x = m) ->
  tabZ n (fun i => tabZ m (fun j => row3 (flatten D) (i * m + j))) = D.
Proof.
  intros Hn Hm. pose proof (zlen_nonneg D). apply Znth_ext; [rewrite zlen_tabZ by lia; auto|].
  intros i Hi. rewrite zlen_tabZ in Hi by lia. rewrite Znth_tabZ by lia.
  destruct (Znth_ex D i ltac:(lia)) as [x Hx]. rewrite Hx. f_equal.
  assert (Lx := Hm x (Znth_In _ _ _ Hx)). pose proof (zlen_nonneg x).
  apply Znth_ext; [rewrite zlen_tabZ by lia; auto|]. intros j Hj. rewrite zlen_tabZ in Hj by lia.
  rewrite Znth_tabZ by lia. destruct (Znth_ex x j ltac:(lia)) as [p Hp]. rewrite Hp. f_equal.
  apply row3_flatten. rewrite (Znth_concat_uniform D m i j x); auto.
Qed.
Lemma flatten_rows data n m : 0 <= n -> 0 <= m -> zlen data = n * m * 3 ->
  flatten (tabZ n (fun i => tabZ m (fun j => row3 data (i * m + j)))) = data.
Proof.
  intros Hn Hm Hl. set (X := tabZ n _).
  assert (U : forall x, In x X -> zlen x = m).
  { intros x Hx. unfold X in Hx. apply In_tabZ in Hx. destruct Hx as [i [_ <-]]. apply zlen_tabZ; lia. }
  assert (LX : zlen X = n) by (apply zlen_tabZ; lia).
  assert (LC : zlen (concat X) = n * m) by (rewrite (zlen_concat_uniform X m U), LX; reflexivity).
  apply Znth_ext; [rewrite zlen_flatten; lia|]. rewrite zlen_flatten, LC. intros i Hi.
  set (k := i / 3). set (c := i mod 3). assert (Ei : i = 3 * k + c) by (unfold k, c; lia).
  assert (Hc : 0 <= c < 3) by (unfold c; lia).
  assert (Hk : 0 <= k < n * m) by lia.
  assert (Hm0 : 0 < m) by nia.
  set (a := k / m). set (b := k mod m).
  assert (Ek : k = a * m + b) by (unfold a, b; pose proof (Z.div_mod k m ltac:(lia)); lia).
  assert (Hb : 0 <= b < m) by (apply Z.mod_pos_bound; lia).
  assert (Ha : 0 <= a < n) by nia.
  assert (HX : Znth X a = Some (tabZ m (fun j => row3 data (a * m + j)))) by (unfold X; rewrite Znth_tabZ by lia; reflexivity).
  assert (Hp : Znth (concat X) k = Some (row3 data k)).
  { rewrite Ek at 1. rewrite (Znth_concat_uniform X m a b _ U HX Hb). rewrite Znth_tabZ by lia. do 2 f_equal. lia. }
  rewrite Ei. rewrite (Znth_flatten X k _ c Hp Hc). unfold row3. cbn [pb pd pq].
  assert (G : forall j, 0 <= j < 3 -> Some (match Znth data (3 * k + j) with Some x => x | None => NaN end) = Znth data (3 * k + j)).
  { intros j Hj. destruct (Znth_ex data (3 * k + j) ltac:(lia)) as [x Hx]. now rewrite Hx. }
  assert (C3 : c = 0 \/ c = 1 \/ c = 2) by lia.
  destruct C3 as [E|[E|E]]; rewrite E; (etransitivity; [|apply G; lia]); reflexivity.
Qed.

Lemma below_nil D :
  zlen (filter (fun p => flt (pd p) (pb p)) (concat D)) = 0 <->
  (forall x p, In x D -> In p x -> flt (pd p) (pb p) = false).
Proof.
  split.
  - intros H x p Hx Hp. destruct (flt (pd p) (pb p)) eqn:E; [|reflexivity]. exfalso.
    assert (I : In p (filter (fun p => flt (pd p) (pb p)) (concat D))).
    { apply filter_In. split; [|assumption]. apply in_concat. exists x. auto. }
    destruct (filter _ _) as [|a l]; [destruct I|]. rewrite zlen_cons in H. pose proof (zlen_nonneg l). lia.
  - intros H. rewrite filter_none; [reflexivity|]. intros p Hp. apply in_concat in Hp.
    destruct Hp as [x [Hx Hp]]. eauto.
Qed.

Lemma two_elems {A} (l : list A) a b : In a l -> In b l -> a <> b -> 2 <= zlen l.
Proof.
  destruct l as [|x [|y l]]; [easy| |].
  - intros [->|[]] [->|[]] H. now elim H.
  - intros _ _ _. rewrite !zlen_cons. pose proof (zlen_nonneg l). lia.
Qed.
Lemma increasing_const l : increasing l -> (forall x, In x l -> x = PInf) -> zlen l <= 1.
Proof.
  destruct l as [|x [|y l]]; [rewrite zlen_nil; lia|rewrite zlen_cons, zlen_nil; lia|].
  intros H Hp. exfalso. assert (F := H 0 1 x y ltac:(lia) eq_refl eq_refl).
  rewrite (Hp x), (Hp y) in F by (simpl; auto). discriminate.
Qed.
Lemma dims_ok l :
  (forall q, In q (np_unique l) -> check_dim (zlen (np_unique l)) q = Ok tt) <->
  (forall q, In q l -> q = PInf) \/ (forall q, In q l -> is_dim_label q).
Proof.
  split.
  - intros H. destruct (existsb (fun q => feq q PInf) l) eqn:E.
    + left. apply existsb_exists in E. destruct E as [q0 [Hq0 E]]. apply feq_eq in E. subst q0.
      assert (H1 : zlen (np_unique l) = 1).
      { specialize (H PInf (proj2 (np_unique_In' _ _) Hq0)). apply check_dim_ok in H.
        destruct H as [[_ H]|[k [_ H]]]; [assumption|discriminate]. }
      intros q Hq. destruct (feq q PInf) eqn:F; [now apply feq_eq|]. exfalso.
      assert (2 <= zlen (np_unique l)); [|lia].
      apply (two_elems _ q PInf); [now apply np_unique_In'|now apply np_unique_In'|].
      intros ->. discriminate.
    + right. intros q Hq. specialize (H q (proj2 (np_unique_In' _ _) Hq)). apply check_dim_ok in H.
      destruct H as [[-> _]|H]; [|assumption]. exfalso.
      assert (existsb (fun q => feq q PInf) l = true) by (apply existsb_exists; exists PInf; auto). congruence.
  - intros H q Hq. apply check_dim_ok. destruct H as [H|H].
    + left. assert (Eq := H q (proj1 (np_unique_In' _ _) Hq)). split; [assumption|].
      assert (I : increasing (np_unique l)).
      { apply np_unique_inc. intros x Hx. now rewrite (H x Hx). }
      assert (zlen (np_unique l) <= 1).
      { apply increasing_const; [assumption|]. intros x Hx. apply H. now apply np_unique_In'. }
      destruct (np_unique l) as [|a t]; [destruct Hq|]. rewrite zlen_cons in *. pose proof (zlen_nonneg t). lia.
    + right. apply H. now apply np_unique_In'.
Qed.

Lemma hd_Znth0 (X : list diagram) : (match Znth X 0 with Some x => map pq x | None => [] end) = map pq (hd [] X).
Proof. destruct X; reflexivity. Qed.

Lemma valid_dims D :
  ((forall q, In q (map pq (hd [] D)) -> q = PInf) \/ (forall q, In q (map pq (hd [] D)) -> is_dim_label q)) <->
  ((forall p, In p (hd [] D) -> pq p = PInf) \/ (forall p, In p (hd [] D) -> is_dim_label (pq p))).
Proof.
  split; (intros [H|H]; [left|right]).
  - intros p Hp. apply H. now apply in_map.
  - intros p Hp. apply H. now apply in_map.
  - intros q Hq. apply in_map_iff in Hq. destruct Hq as [p [<- Hp]]. auto.
  - intros q Hq. apply in_map_iff in Hq. destruct Hq as [p [<- Hp]]. auto.
Qed.

Definition shape_size (shape : list Z) := fold_right Z.mul 1 shape.
Lemma isnan_iff x : isnan x = false <-> x <> NaN.
Proof. destruct x; cbn; split; congruence. Qed.

Lemma flatten_nan D :
  existsb isnan (flatten D) = false <->
  (forall x p, In x D -> In p x -> pb p <> NaN /\ pd p <> NaN /\ pq p <> NaN).
Proof.
  split.
  - intros H x p Hx Hp.
    assert (G : forall v, In v [pb p; pd p; pq p] -> v <> NaN).
    { intros v Hv. apply isnan_iff. destruct (isnan v) eqn:E; [|reflexivity].
      rewrite <- H. symmetry. apply existsb_exists. exists v. split; [|assumption].
      apply in_flat_map. exists p. split; [|assumption]. apply in_concat. eauto. }
    split; [|split]; apply G; simpl; auto.
  - intros H. destruct (existsb isnan (flatten D)) eqn:E; [|reflexivity].
    apply existsb_exists in E. destruct E as [v [Hv E]]. apply in_flat_map in Hv.
    destruct Hv as [p [Hp Hv]]. apply in_concat in Hp. destruct Hp as [x [Hx Hp]].
    destruct (H x p Hx Hp) as [A [B C]]. rewrite <- isnan_iff in A, B, C.
    destruct Hv as [<-|[<-|[<-|[]]]]; congruence.
Qed.

Lemma check_diagrams_ok shape data D :
  (forall s, In s shape -> 0 <= s) -> zlen data = shape_size shape ->
  (check_diagrams shape data = Ok D <->
   exists n m, shape = [n; m; 3] /\ 1 <= n /\ zlen D = n /\ (forall x, In x D -> zlen x = m) /\
     flatten D = data /\ valid_collection D).
Proof.
  intros Hs Hl. split.
  - unfold check_diagrams. destruct shape as [|n shape]; [discriminate|].
    destruct (Z.ltb_spec n 1); [discriminate|].
    destruct (existsb isnan data) eqn:En; [discriminate|].
    destruct shape as [|m [|c [|? ?]]]; try discriminate.
    destruct (Z.eqb_spec c 3) as [->|]; [|discriminate]. cbn [negb].
    set (X := tabZ n _). cbv zeta. rewrite hd_Znth0.
    destruct (mapM _ _) as [r|e] eqn:E; [|discriminate]. cbn [bind].
    destruct (Z.eqb_spec (zlen (filter (fun p => flt (pd p) (pb p)) (concat X))) 0) as [B|]; [|discriminate].
    cbn [negb]. intros [= <-]. exists n, m.
    assert (Hm : 0 <= m) by (apply Hs; simpl; auto).
    split; [reflexivity|]. split; [assumption|]. split; [apply zlen_tabZ; lia|]. split; [|split].
    + intros x Hx. unfold X in Hx. apply In_tabZ in Hx. destruct Hx as [i [_ <-]]. apply zlen_tabZ; lia.
    + apply flatten_rows; [lia|lia|]. rewrite Hl. unfold shape_size. cbn [fold_right]. lia.
    + split; [|split; [now apply below_nil|]].
      * apply valid_dims, dims_ok, mapM_unit_ok. eauto.
      * apply flatten_nan. rewrite <- En. f_equal.
        apply flatten_rows; [lia|lia|]. rewrite Hl. unfold shape_size. cbn [fold_right]. lia.
  - intros [n [m [-> [Hn [LD [LX [<- [V1 [V2 V3]]]]]]]]]. unfold check_diagrams.
    destruct (Z.ltb_spec n 1); [lia|]. rewrite (proj2 (flatten_nan D) V3). change (3 =? 3) with true. cbn [negb]. cbv zeta.
    rewrite (rows_of_flatten D n m LD LX). rewrite hd_Znth0.
    destruct (proj2 (mapM_unit_ok _ _) (proj2 (dims_ok _) (proj2 (valid_dims D) V1))) as [r ->]. cbn [bind].
    apply below_nil in V2. rewrite V2. reflexivity.
Qed.
Lemma check_diagrams_err shape data e :
  check_diagrams shape data = Err e -> e = ValueError \/ e = OverflowError.
Proof.
  unfold check_diagrams. destruct shape as [|n shape]; [intros [= <-]; auto|].
  destruct (n <? 1); [intros [= <-]; auto|].
  destruct (existsb isnan data); [intros [= <-]; auto|].
  destruct shape as [|m [|c [|? ?]]]; try (intros [= <-]; auto; fail).
  destruct (negb (c =? 3)); [intros [= <-]; auto|]. cbv zeta.
  destruct (mapM _ _) as [r|e'] eqn:E; cbn [bind].
  - destruct (negb _); [intros [= <-]; auto|discriminate].
  - intros [= <-]. apply mapM_Err_in in E. destruct E as [x [_ E]]. apply check_dim_err in E. intuition.
Qed.

Lemma check_dim_overflow n q : check_dim n q = Err OverflowError <-> q = NInf.
Proof.
  unfold check_dim. destruct q as [| |q|]; cbn [feq]; split; try congruence; try discriminate.
  - destruct (negb _ || flt _ _); discriminate.
  - destruct (negb (n =? 1)); discriminate.
Qed.

Lemma check_diagrams_overflow shape data :
  (forall s, In s shape -> 0 <= s) -> zlen data = shape_size shape ->
  (check_diagrams shape data = Err OverflowError <->
   exists n m D, shape = [n; m; 3] /\ 1 <= n /\ zlen D = n /\ (forall x, In x D -> zlen x = m) /\
     flatten D = data /\
     (forall x p, In x D -> In p x -> pb p <> NaN /\ pd p <> NaN /\ pq p <> NaN) /\
     exists p, In p (hd [] D) /\ pq p = NInf).
Proof.
  intros Hs Hl. split.
  - unfold check_diagrams. destruct shape as [|n shape]; [discriminate|].
    destruct (Z.ltb_spec n 1); [discriminate|].
    destruct (existsb isnan data) eqn:En; [discriminate|].
    destruct shape as [|m [|c [|? ?]]]; try discriminate.
    destruct (Z.eqb_spec c 3) as [->|]; [|discriminate]. cbn [negb].
    set (X := tabZ n _). cbv zeta. rewrite hd_Znth0.
    destruct (mapM _ _) as [r|e] eqn:E; cbn [bind]; [destruct (negb _); discriminate|].
    intros [= ->]. exists n, m, X.
    assert (Hm : 0 <= m) by (apply Hs; simpl; auto).
    assert (HF : flatten X = data).
    { apply flatten_rows; [lia|lia|]. rewrite Hl. unfold shape_size. cbn [fold_right]. lia. }
    split; [reflexivity|]. split; [assumption|]. split; [apply zlen_tabZ; lia|]. split; [|split; [|split]].
    + intros x Hx. unfold X in Hx. apply In_tabZ in Hx. destruct Hx as [i [_ <-]]. apply zlen_tabZ; lia.
    + exact HF.
    + apply flatten_nan. now rewrite HF.
    + apply mapM_Err_in in E. destruct E as [q [Hq E]]. apply check_dim_overflow in E. subst q.
      apply (proj1 (np_unique_In' _ _)) in Hq. apply in_map_iff in Hq. destruct Hq as [p [E Hp]]. eauto.
  - intros [n [m [D [-> [Hn [LD [LX [<- [V3 [p [Hp E]]]]]]]]]]]. unfold check_diagrams.
    destruct (Z.ltb_spec n 1); [lia|]. rewrite (proj2 (flatten_nan D) V3). change (3 =? 3) with true. cbn [negb]. cbv zeta.
    rewrite (rows_of_flatten D n m LD LX). rewrite hd_Znth0.
    assert (Hin : In NInf (np_unique (map pq (hd [] D)))).
    { apply np_unique_In'. rewrite <- E. now apply in_map. }
    assert (Hinc : increasing (np_unique (map pq (hd [] D)))).
    { apply np_unique_inc. intros q Hq. apply in_map_iff in Hq. destruct Hq as [r [<- Hr]].
      destruct D as [|x D]; [destruct Hr|]. apply isnan_iff. apply (V3 x r); [now left|exact Hr]. }
    destruct (np_unique (map pq (hd [] D))) as [|a t]; [destruct Hin|].
    destruct Hin as [->|Hin]; [reflexivity|].
    apply increasing_inv in Hinc. destruct Hinc as [_ Hinc]. specialize (Hinc _ Hin).
    destruct a; discriminate Hinc.
Qed.

(** *** post-processing *)
Lemma removelast_spec {A} (l : list A) : py_sub None (Some (-1)) l = removelast l.
Proof.
  destruct (py_sub_drop_last l 1 ltac:(lia)) as [L N]. change (- (1)) with (-1) in *.
  destruct l as [|a l]; [reflexivity|].
  assert (Hne : a :: l <> []) by easy.
  assert (E := app_removelast_last a Hne).
  assert (Lr : zlen (a :: l) = zlen (removelast (a :: l)) + 1).
  { rewrite E at 1. rewrite zlen_app. reflexivity. }
  pose proof (zlen_nonneg (removelast (a :: l))).
  apply Znth_ext; [lia|]. intros i Hi. rewrite N by lia. rewrite E at 1. apply Znth_app1. lia.
Qed.
Lemma tl_spec {A} (l : list A) : py_sub (Some 1) None l = tl l.
Proof.
  destruct (py_sub_from l 1 ltac:(lia)) as [L N].
  destruct l as [|a l]; [reflexivity|]. cbn [tl]. rewrite zlen_cons in *. pose proof (zlen_nonneg l).
  apply Znth_ext; [lia|]. intros i Hi. rewrite N by lia. rewrite Znth_cons by lia. f_equal. lia.
Qed.

Definition to_rows (q : fl) (l : list (fl * fl)) : diagram := map (fun bd => Pt (fst bd) (snd bd) q) l.
Lemma nan_to_num_eq i x : nan_to_num i x = finite_value i x.
Proof. destruct x; try reflexivity. Qed.
Lemma replace_rows i q l :
  to_rows q (replace_infinity_values i l) =
  filter (fun p => flt (pb p) (pd p))
    (map (fun bd => Pt (finite_value i (fst bd)) (finite_value i (snd bd)) q) l).
Proof.
  unfold to_rows, replace_infinity_values. induction l as [|bd l IH]; [reflexivity|].
  cbn [map filter]. cbn [fst snd pb pd]. rewrite !nan_to_num_eq.
  destruct (flt _ _); cbn [map]; [f_equal|]; exact IH.
Qed.
Lemma extract_sub_ok reduced i d dim :
  has_dimension d dim ->
  exists s, extract_sub reduced i d dim = Ok s /\
    to_rows (fz dim) s = nontrivial_rows reduced i d dim.
Proof.
  intros [Hd Hb]. unfold extract_sub, nontrivial_rows, backend_points, without_infinite_class.
  assert (K : (negb (dim =? 0) || negb reduced) = negb (reduced && (dim =? 0))).
  { destruct (dim =? 0), reduced; reflexivity. }
  destruct d as [subs|pers].
  - destruct (Znth_ex subs dim ltac:(lia)) as [s Hs]. rewrite (py_get_in subs dim s Hd Hs). cbn [bind].
    rewrite Hs, K. eexists. split; [reflexivity|]. rewrite replace_rows.
    destruct (reduced && (dim =? 0)); cbn [negb]; [now rewrite removelast_spec|reflexivity].
  - rewrite K. eexists. split; [reflexivity|]. rewrite replace_rows.
    destruct (reduced && (dim =? 0)); cbn [negb]; [now rewrite tl_spec|reflexivity].
Qed.

Lemma fill_dim_spec (done rest : diagram) (junk : diagram) q pad sub :
  zlen sub <= zlen junk ->
  fill_dim (done ++ junk ++ rest) (zlen done) (zlen done + zlen junk) q pad sub =
  done ++ padded (zlen junk) pad q (to_rows q sub) ++ rest.
Proof.
  intros Hs. unfold fill_dim. pose proof (zlen_nonneg sub). pose proof (zlen_nonneg done). pose proof (zlen_nonneg rest).
  unfold padded, diag_rows. assert (Lr : zlen (to_rows q sub) = zlen sub) by apply zlen_map.
  rewrite Lr. apply Znth_ext.
  - rewrite !zlen_upd_range, !zlen_app, zlen_repeat. lia.
  - rewrite !zlen_upd_range, !zlen_app. intros k Hk. rewrite !Znth_upd_range.
    destruct (Z_lt_dec k (zlen done)) as [C|C].
    + rewrite (Znth_app1 done) by lia. rewrite (Znth_app1 done) by lia.
      repeat match goal with |- context [?a <=? k] => destruct (Z.leb_spec a k); try lia end. reflexivity.
    + rewrite (Znth_app2 done (junk ++ rest)) by lia. rewrite (Znth_app2 done _ k) by lia.
      destruct (Z_lt_dec (k - zlen done) (zlen junk)) as [D|D].
      * rewrite (Znth_app1 junk) by lia. destruct (Znth_ex junk (k - zlen done) ltac:(lia)) as [p ->].
        rewrite (Znth_app1 (_ ++ _) rest) by (rewrite zlen_app, zlen_repeat; lia).
        destruct (Z_lt_dec (k - zlen done) (zlen sub)) as [E|E].
        -- rewrite (Znth_app1 (to_rows q sub)) by lia. unfold to_rows. rewrite Znth_map.
           destruct (Znth_ex sub (k - zlen done) ltac:(lia)) as [bd Hbd]. rewrite Hbd.
           repeat match goal with
           | |- context [?a <=? ?b] => destruct (Z.leb_spec a b); try lia
           | |- context [?a <? ?b] => destruct (Z.ltb_spec a b); try lia
           end. cbn [andb option_map]. rewrite ?Hbd. reflexivity.
        -- rewrite Znth_app2 by lia. rewrite Lr.
           assert (R : Znth (repeat (Pt pad pad q) (Z.to_nat (zlen junk - zlen sub))) (k - zlen done - zlen sub) = Some (Pt pad pad q)).
           { rewrite <- repeat_tabZ. rewrite Znth_tabZ by lia. reflexivity. }
           rewrite R.
           repeat match goal with
           | |- context [?a <=? ?b] => destruct (Z.leb_spec a b); try lia
           | |- context [?a <? ?b] => destruct (Z.ltb_spec a b); try lia
           end. reflexivity.
      * rewrite (Znth_app2 junk) by lia.
        rewrite (Znth_app2 (_ ++ _) rest) by (rewrite zlen_app, zlen_repeat; lia).
        rewrite zlen_app, Lr, zlen_repeat.
           repeat match goal with
           | |- context [k <? ?b] => destruct (Z.ltb_spec k b); try lia
           end. rewrite !andb_false_r. f_equal. lia.
Qed.

Lemma Znth_repeat_split {A} (x : A) a b : 0 <= a -> 0 <= b ->
  repeat x (Z.to_nat (a + b)) = repeat x (Z.to_nat a) ++ repeat x (Z.to_nat b).
Proof. intros. rewrite <- repeat_app. f_equal. lia. Qed.

Lemma cumsum_tab n (f : Z -> Z) i : 0 <= i <= n ->
  Znth (cumsum (0 :: tabZ n f)) i = Some (fold_right Z.add 0 (tabZ i f)).
Proof.
  intros Hi. unfold cumsum. cbn [cumsum_from].
  assert (G : forall m, 0 <= m -> forall acc k, 0 <= k < m ->
     Znth (cumsum_from acc (tabZ m f)) k = Some (acc + fold_right Z.add 0 (tabZ (k + 1) f))).
  { intros m Hm acc. revert m Hm acc. apply (natlike_ind (fun m => forall acc k, 0 <= k < m ->
       Znth (cumsum_from acc (tabZ m f)) k = Some (acc + fold_right Z.add 0 (tabZ (k + 1) f)))); [lia|].
    intros m Hm IH acc k Hk. unfold Z.succ. rewrite tabZ_S by lia. rewrite cumsum_from_app.
    assert (LL : zlen (cumsum_from acc (tabZ m f)) = m) by (rewrite zlen_cumsum_from, zlen_tabZ by lia; reflexivity).
    destruct (Z.eq_dec k m) as [->|].
    - rewrite Znth_app2 by lia. rewrite LL.
      replace (m - m) with 0 by lia. cbn [cumsum_from]. rewrite Znth_0. rewrite tabZ_S, sum_app by lia. cbn [fold_right]. f_equal. lia.
    - rewrite Znth_app1 by lia. apply IH. lia. }
  destruct (Z.eq_dec i 0) as [->|]; [reflexivity|].
  rewrite Znth_cons by lia. rewrite G by lia. replace (i - 1 + 1) with i by lia. reflexivity.
Qed.
Lemma last_Znth (l : list Z) : l <> [] -> Znth l (zlen l - 1) = Some (last l 0).
Proof.
  intros H. destruct (exists_last H) as [l' [a ->]]. rewrite last_last, zlen_app, zlen_cons, zlen_nil.
  replace (zlen l' + (0 + 1) - 1) with (zlen l') by lia. apply Znth_mid.
Qed.

(** fill all dimensions of one sample *)
Lemma fill_sample_spec n (slot : Z -> Z) (q pad : Z -> fl) (sub : Z -> list (fl * fl)) (junk : pt) (idx : Z -> Z) :
  0 <= n -> (forall i, 0 <= i < n -> zlen (sub i) <= slot i) ->
  (forall i, 0 <= i < n -> 0 <= slot i) ->
  (forall i, 0 <= i <= n -> idx i = fold_right Z.add 0 (tabZ i slot)) ->
  fold_left (fun row i => fill_dim row (idx i) (idx (i + 1)) (q i) (pad i) (sub i)) (arange n)
    (tabZ (idx n) (fun _ => junk))
  = concat (tabZ n (fun i => padded (slot i) (pad i) (q i) (to_rows (q i) (sub i)))).
Proof.
  intros Hn Hsub Hslot Hidx.
  set (blk := fun i => padded (slot i) (pad i) (q i) (to_rows (q i) (sub i))).
  assert (Lblk : forall i, 0 <= i < n -> zlen (blk i) = slot i).
  { intros i Hi. unfold blk, padded, diag_rows. rewrite zlen_app, zlen_repeat. unfold to_rows. rewrite zlen_map.
    specialize (Hsub i Hi). lia. }
  assert (Mono : forall a, 0 <= a -> a <= n -> 0 <= fold_right Z.add 0 (tabZ a slot)).
  { apply (natlike_ind (fun a => a <= n -> 0 <= fold_right Z.add 0 (tabZ a slot))).
    - intros _. reflexivity || (unfold tabZ; simpl; lia).
    - intros a Ha IH Han. unfold Z.succ in *. rewrite tabZ_S, sum_app by lia. cbn [fold_right]. specialize (IH ltac:(lia)). specialize (Hslot a ltac:(lia)). lia. }
  assert (Inv : forall k, 0 <= k -> k <= n -> forall T, 0 <= T ->
    fold_left (fun row i => fill_dim row (idx i) (idx (i + 1)) (q i) (pad i) (sub i)) (arange k)
      (repeat junk (Z.to_nat (idx k + T))) = concat (tabZ k blk) ++ repeat junk (Z.to_nat T) /\
    zlen (concat (tabZ k blk)) = idx k).
  { intros k Hk. pattern k. revert k Hk. apply natlike_ind.
    - intros _ T HT. rewrite Hidx by lia. cbn. split; [|reflexivity]. do 2 f_equal.
    - intros k Hk IH Hkn T HT. unfold Z.succ in *.
      assert (Ek : idx (k + 1) = idx k + slot k).
      { rewrite !Hidx by lia. rewrite tabZ_S, sum_app by lia. cbn [fold_right]. lia. }
      assert (Hs := Hslot k ltac:(lia)).
      assert (Hi0 : 0 <= idx k) by (rewrite Hidx by lia; apply Mono; lia).
      destruct (IH ltac:(lia) (slot k + T) ltac:(lia)) as [I1 I2].
      unfold arange. rewrite (tabZ_S k (fun i => i)) by lia. rewrite fold_left_app.
      replace (idx (k + 1) + T) with (idx k + (slot k + T)) by lia.
      fold (arange k). rewrite I1. cbn [fold_left]. rewrite Ek.
      rewrite Znth_repeat_split by lia.
      pose proof (fill_dim_spec (concat (tabZ k blk)) (repeat junk (Z.to_nat T)) (repeat junk (Z.to_nat (slot k))) (q k) (pad k) (sub k)) as F.
      rewrite zlen_repeat, I2 in F. replace (Z.of_nat (Z.to_nat (slot k))) with (slot k) in F by lia.
      rewrite F by (apply Hsub; lia).
      rewrite tabZ_S by lia. rewrite concat_app. cbn [concat]. rewrite app_nil_r, <- app_assoc. split; [reflexivity|].
      rewrite zlen_app, I2, Lblk by lia. reflexivity. }
  destruct (Inv n Hn ltac:(lia) 0 ltac:(lia)) as [I _]. rewrite repeat_tabZ.
  replace (idx n) with (idx n + 0) at 1 by lia. rewrite I. apply app_nil_r.
Qed.

Lemma pymin_fold_spec t x :
  isnan x = false -> (forall y, In y t -> isnan y = false) ->
  In (fold_left (fun a b => if flt b a then b else a) t x) (x :: t) /\
  forall y, In y (x :: t) -> fle (fold_left (fun a b => if flt b a then b else a) t x) y = true.
Proof.
  revert x; induction t as [|z t IH]; intros x Hx Ht; cbn [fold_left].
  - split; [now left|]. intros y [->|[]]. now apply fle_refl.
  - assert (Hz := Ht z (or_introl eq_refl)). set (w := if flt z x then z else x).
    assert (E : w = x /\ fle x z = true \/ w = z /\ fle z x = true).
    { unfold w. destruct (flt z x) eqn:E; [right; split; [reflexivity|now apply flt_fle]|left].
      split; [reflexivity|]. now apply flt_false. }
    destruct (IH w) as [I1 I2].
    { destruct E as [[-> _]|[-> _]]; assumption. }
    { intros; apply Ht; now right. }
    split.
    + destruct I1 as [I1|I1]; [|right; now right]. rewrite <- I1.
      destruct E as [[-> _]|[-> _]]; [now left|right; now left].
    + assert (Hm := I2 _ (or_introl eq_refl)).
      intros y [<-|[<-|Hy]].
      * eapply fle_trans; [exact Hm|]. destruct E as [[-> _]|[-> ?]]; [now apply fle_refl|assumption].
      * eapply fle_trans; [exact Hm|]. destruct E as [[-> ?]|[-> _]]; [assumption|now apply fle_refl].
      * apply I2. now right.
Qed.

Lemma padding_value_spec (subs : list (list (fl * fl))) q :
  subs <> [] -> (forall s p, In s subs -> In p s -> flt (fst p) (snd p) = true) ->
  is_padding_value (padding_value subs) (map (to_rows q) subs).
Proof.
  intros Hne Hlt. unfold padding_value.
  assert (Hnan : forall s p, In s subs -> In p s -> isnan (fst p) = false).
  { intros s p Hs Hp. exact (proj1 (flt_nan _ _ (Hlt s p Hs Hp))). }
  assert (Hmin : forall s, In s subs -> isnan (sub_min s) = false /\
     (s = [] /\ sub_min s = PInf \/ In (sub_min s) (map fst s) /\ forall p, In p s -> fle (sub_min s) (fst p) = true)).
  { intros s Hs. unfold sub_min. destruct (map fst s) as [|x t] eqn:E.
    - apply map_eq_nil in E. subst s. split; [reflexivity|left; auto].
    - assert (N : forall y, In y (x :: t) -> isnan y = false).
      { intros y Hy. rewrite <- E in Hy. apply in_map_iff in Hy. destruct Hy as [p [<- Hp]]. eauto. }
      destruct (fmin_fold_spec t x) as [F1 F2]; [apply N; now left|intros; apply N; now right|].
      split; [apply N; assumption|]. right. split; [assumption|]. intros p Hp. apply F2. rewrite <- E. now apply in_map. }
  destruct (map sub_min subs) as [|x t] eqn:E; [apply map_eq_nil in E; contradiction|].
  assert (N : forall y, In y (x :: t) -> isnan y = false).
  { intros y Hy. rewrite <- E in Hy. apply in_map_iff in Hy. destruct Hy as [s [<- Hs]]. apply Hmin. assumption. }
  destruct (pymin_fold_spec t x) as [F1 F2]; [apply N; now left|intros; apply N; now right|].
  set (m := fold_left _ t x) in *. rewrite <- E in F1, F2. apply in_map_iff in F1. destruct F1 as [s0 [Es0 Hs0]].
  destruct (feq m PInf) eqn:Em.
  - left. split; [reflexivity|]. intros x0 Hx0. apply in_map_iff in Hx0. destruct Hx0 as [s [<- Hs]].
    apply feq_eq in Em.
    destruct (Hmin s Hs) as [_ [[-> _]|[I _]]]; [reflexivity|exfalso].
    apply in_map_iff in I. destruct I as [p [Ep Hp]]. assert (L := Hlt s p Hs Hp). rewrite Ep in L.
    assert (F := F2 (sub_min s) (in_map _ _ _ Hs)). rewrite Em in F. destruct (sub_min s); try discriminate. destruct (snd p); discriminate.
  - right. destruct (Hmin s0 Hs0) as [_ [[-> Es]|[I J]]].
    + rewrite Es in Es0. rewrite <- Es0 in Em. discriminate.
    + rewrite Es0 in *. split.
      * apply in_map_iff in I. destruct I as [p [Ep Hp]]. exists (to_rows q s0), (Pt (fst p) (snd p) q).
        split; [now apply in_map|]. split; [|exact Ep]. unfold to_rows. apply in_map_iff. exists p. auto.
      * intros y p Hy Hp. apply in_map_iff in Hy. destruct Hy as [s [<- Hs]].
        unfold to_rows in Hp. apply in_map_iff in Hp. destruct Hp as [bd [<- Hbd]]. cbn [pb].
        eapply fle_trans; [exact (F2 _ (in_map _ _ _ Hs))|].
        destruct (Hmin s Hs) as [_ [[-> _]|[_ K]]]; [destruct Hbd|auto].
Qed.
Lemma slots_spec (subs : list (list (fl * fl))) q : is_slot_count (slots subs) (map (to_rows q) subs).
Proof.
  unfold slots. split; [lia|]. split.
  - intros l Hl. apply in_map_iff in Hl. destruct Hl as [s [<- Hs]]. unfold to_rows. rewrite zlen_map.
    assert (zlen s <= zmax_list (map zlen subs)) by (apply zmax_list_ge, in_map, Hs). lia.
  - destruct (Z.max_spec 1 (zmax_list (map zlen subs))) as [[H ->]|[H ->]]; [right|now left].
    assert (I : In (zmax_list (map zlen subs)) (map zlen subs)).
    { apply zmax_list_in.
      - intros E. rewrite E in H. simpl in H. lia.
      - intros x Hx. apply in_map_iff in Hx. destruct Hx as [s [<- _]]. apply zlen_nonneg. }
    apply in_map_iff in I. destruct I as [s [Es Hs]]. exists (to_rows q s). split; [now apply in_map|].
    unfold to_rows. now rewrite zlen_map.
Qed.

Definition sub_of (reduced : bool) (i : fl) (d : backend) (dim : Z) : list (fl * fl) :=
  match extract_sub reduced i d dim with Ok s => s | Err _ => [] end.
Lemma sub_of_rows reduced i d dim : has_dimension d dim ->
  extract_sub reduced i d dim = Ok (sub_of reduced i d dim) /\
  to_rows (fz dim) (sub_of reduced i d dim) = nontrivial_rows reduced i d dim.
Proof.
  intros H. destruct (extract_sub_ok reduced i d dim H) as [s [E1 E2]]. unfold sub_of. rewrite E1. auto.
Qed.
Lemma sub_of_lt reduced i d dim p : In p (sub_of reduced i d dim) -> flt (fst p) (snd p) = true.
Proof.
  unfold sub_of, extract_sub, replace_infinity_values. destruct d as [subs|pers]; [destruct (py_get subs dim); cbn [bind]; [|easy]|];
  intros H; apply filter_In in H; tauto.
Qed.

Lemma postprocess_ok junk Xt0 dims i reduced :
  Xt0 <> [] -> (forall d dim, In d Xt0 -> In dim dims -> has_dimension d dim) ->
  exists ns ms,
    zlen ns = zlen dims /\ zlen ms = zlen dims /\
    (forall k dim, Znth dims k = Some dim -> exists n m,
       Znth ns k = Some n /\ Znth ms k = Some m /\
       is_slot_count n (map (fun d => nontrivial_rows reduced i d dim) Xt0) /\
       is_padding_value m (map (fun d => nontrivial_rows reduced i d dim) Xt0)) /\
    postprocess_diagrams junk Xt0 dims i reduced = Ok (map (fun d =>
      concat (map (fun qnm => padded (fst (snd qnm)) (snd (snd qnm)) (fz (fst qnm))
                                (nontrivial_rows reduced i d (fst qnm)))
                  (combine dims (combine ns ms)))) Xt0).
Proof.
  intros Hne Hd. unfold postprocess_diagrams. pose proof (zlen_nonneg dims) as Hn0.
  set (S := fun d => map (sub_of reduced i d) dims).
  assert (HM : mapM (fun d => mapM (extract_sub reduced i d) dims) Xt0 = Ok (map S Xt0)).
  { apply mapM_Ok. intros d Hdin. apply mapM_Ok. intros dim Hdim. apply sub_of_rows. auto. }
  rewrite HM. cbn [bind].
  set (col := fun k => map (fun s : list (list (fl * fl)) => match Znth s k with Some x => x | None => [] end) (map S Xt0)).
  assert (Hcol : forall k dim, Znth dims k = Some dim -> col k = map (fun d => sub_of reduced i d dim) Xt0).
  { intros k dim Hk. unfold col. rewrite map_map. apply map_ext. intros d. unfold S. rewrite Znth_map, Hk. reflexivity. }
  assert (Hcolrows : forall k dim, Znth dims k = Some dim ->
     map (to_rows (fz dim)) (col k) = map (fun d => nontrivial_rows reduced i d dim) Xt0).
  { intros k dim Hk. rewrite (Hcol k dim Hk), map_map. apply map_ext_in. intros d Hdin. apply sub_of_rows.
    apply Hd; [assumption|]. eapply Znth_In; eauto. }
  exists (tabZ (zlen dims) (fun k => slots (col k))), (tabZ (zlen dims) (fun k => padding_value (col k))).
  rewrite !zlen_tabZ by assumption. split; [reflexivity|]. split; [reflexivity|]. split.
  { intros k dim Hk. assert (Hk' := Znth_Some_lt _ _ _ Hk).
    exists (slots (col k)), (padding_value (col k)). rewrite !Znth_tabZ by lia.
    split; [reflexivity|]. split; [reflexivity|]. rewrite <- (Hcolrows k dim Hk). split; [apply slots_spec|].
    apply padding_value_spec.
    - rewrite (Hcol k dim Hk). intros E. apply map_eq_nil in E. contradiction.
    - intros s p Hs Hp. rewrite (Hcol k dim Hk) in Hs. apply in_map_iff in Hs. destruct Hs as [d [<- _]].
      eapply sub_of_lt; eauto. }
  assert (HneS : exists s0 r0, map S Xt0 = s0 :: r0) by (destruct Xt0 as [|d0 r]; [easy|]; cbn [map]; eauto).
  destruct HneS as [s0 [r0 E0]]. rewrite E0 at 1. cbv zeta. f_equal. rewrite map_map. apply map_ext_in.
  intros d Hdin.
  change (tabZ (zlen dims) (fun k => slots (map (fun s => match Znth s k with Some x => x | None => [] end) (map S Xt0))))
    with (tabZ (zlen dims) (fun k => slots (col k))).
  change (tabZ (zlen dims) (fun k => padding_value (map (fun s => match Znth s k with Some x => x | None => [] end) (map S Xt0))))
    with (tabZ (zlen dims) (fun k => padding_value (col k))).
  set (cs := cumsum (0 :: tabZ (zlen dims) (fun k => slots (col k)))).
  set (idx := fun k => match Znth cs k with Some a => a | None => 0 end).
  assert (Hidx : forall k, 0 <= k <= zlen dims -> idx k = fold_right Z.add 0 (tabZ k (fun k => slots (col k)))).
  { intros k Hk. unfold idx, cs. rewrite cumsum_tab by lia. reflexivity. }
  assert (Hlast : last cs 0 = idx (zlen dims)).
  { assert (L : zlen cs = zlen dims + 1) by (unfold cs; rewrite zlen_cumsum, zlen_cons, zlen_tabZ by lia; reflexivity).
    assert (cs <> []) by (intros E; rewrite E, zlen_nil in L; lia).
    assert (P := last_Znth cs H). rewrite L in P. replace (zlen dims + 1 - 1) with (zlen dims) in P by lia.
    unfold idx. rewrite P. reflexivity. }
  rewrite Hlast.
  etransitivity.
  { apply (fill_sample_spec (zlen dims) (fun k => slots (col k))
      (fun k => match Znth dims k with Some dm => fz dm | None => NaN end)
      (fun k => match Znth (tabZ (zlen dims) (fun k => padding_value (col k))) k with Some p => p | None => NaN end)
      (fun k => match Znth (S d) k with Some x => x | None => [] end) junk idx Hn0).
    - intros k Hk. destruct (Znth_ex dims k Hk) as [dim Hdim]. unfold S. rewrite Znth_map, Hdim. cbn [option_map].
      assert (zlen (sub_of reduced i d dim) <= zmax_list (map zlen (col k))); [|unfold slots; lia].
      apply zmax_list_ge. apply in_map. rewrite (Hcol k dim Hdim). apply (in_map (fun d => sub_of reduced i d dim)). assumption.
    - intros k Hk. unfold slots. lia.
    - exact Hidx. }
  f_equal. apply Znth_ext.
  - rewrite zlen_tabZ, zlen_map by assumption. unfold zlen. rewrite !combine_length.
    rewrite !tabZ_arange, !map_length. unfold arange, tabZ. rewrite map_length, seq_length. unfold zlen. lia.
  - intros k Hk. rewrite zlen_tabZ in Hk by lia. rewrite Znth_tabZ by lia. rewrite Znth_map.
    destruct (Znth_ex dims k Hk) as [dim Hdim].
    assert (CB : Znth (combine dims (combine (tabZ (zlen dims) (fun k => slots (col k))) (tabZ (zlen dims) (fun k => padding_value (col k))))) k
      = Some (dim, (slots (col k), padding_value (col k)))).
    { apply Znth_combine; [assumption|]. apply Znth_combine; rewrite Znth_tabZ by lia; reflexivity. }
    rewrite CB. cbn [option_map fst snd]. f_equal. rewrite Hdim. rewrite Znth_tabZ by lia.
    unfold S. rewrite Znth_map, Hdim. cbn [option_map]. f_equal.
    apply sub_of_rows. apply Hd; [assumption|]. eapply Znth_In; eauto.
Qed.
