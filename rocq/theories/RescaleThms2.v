(** C55, continued: consequences for ConsistentRescaling, and ConsecutiveRescaling. *)
From Coq Require Import Reals Lra Permutation.
From Verif Require Import Np NpFacts HomProofs RescaleModel RescaleSpec RescaleProofs RescaleThms GraphThms GraphThms2.
Open Scope Z_scope.

Lemma Forall2_iff_In {A B} (P Q : A -> B -> Prop) l : forall l', (forall x y, In x l -> (P x y <-> Q x y)) ->
  (Forall2 P l l' <-> Forall2 Q l l').
Proof.
  intros l' H. split; intro F; induction F; constructor; auto; try (apply H; [now left|auto]);
    apply IHF; intros; apply H; now right.
Qed.

(** The whole collection. *)
Theorem consistent_transform_spec {P} (pd : P -> res (list (list R))) argsort k X Ms :
  (forall x D row, In x X -> pd x = Ok D -> In row D -> sorts row (argsort row)) ->
  (forall x D, In x X -> pd x = Ok D -> square D (zlen D) /\ D <> []) -> 0 <= k ->
  (consistent_transform pd argsort k X = Ok Ms <->
   Forall2 (fun x M => exists D, pd x = Ok D /\ k < zlen D /\ rescaled k D M) X Ms).
Proof.
  intros S Q K.
  assert (T : forall x M, In x X -> ((do Xm <- pd x; consistent_rescaling argsort k Xm) = Ok M <->
    exists D, pd x = Ok D /\ k < zlen D /\ rescaled k D M)).
  { intros x M Hx. destruct (pd x) as [D|e] eqn:E; cbn [bind].
    - destruct (Q x D Hx E). rewrite consistent_rescaling_spec; auto.
      + split; [eauto|]. intros (D' & H1 & H2). now injection H1 as <-.
      + intros row. now apply (S x).
    - split; [easy|]. now intros (D & ? & _). }
  unfold consistent_transform. rewrite <- (Forall2_iff_In _ _ X Ms T). split; [apply mapM_Ok_inv|apply mapM_Forall2].
Qed.

Definition symmetric {A} (M : list (list A)) : Prop := forall i j, entry M i j = entry M j i.
(** The result is symmetric with a zero diagonal, whatever the input. *)
Theorem rescaled_symmetric k D M : square D (zlen D) -> rescaled k D M ->
  symmetric M /\ forall i e, entry M i i = Some e -> e = Some 0%R.
Proof.
  intros QD (Q & Di & r & Lr & Kr & E). split.
  - assert (T : forall i j, i < j -> entry M i j = entry M j i).
    { intros i j L. destruct (Z_le_dec 0 i), (Z_lt_dec j (zlen D)).
      - destruct (Znth_ex r i) as [v Hv]; [lia|]. destruct (Znth_ex r j) as [w Hw]; [lia|].
        destruct (square_entry D _ i j QD ltac:(lia) ltac:(lia)) as [d Hd].
        destruct (E _ _ _ _ _ L Hd Hv Hw) as (e & -> & -> & _). reflexivity.
      - unfold entry. rewrite (Znth_None M j) by (destruct Q; lia). destruct (Znth M i) eqn:Em; auto.
        apply Znth_None. destruct Q as [_ Q]. rewrite (Q _ (Znth_In _ _ _ Em)). lia.
      - unfold entry. rewrite (Znth_None M i) by lia. destruct (Znth M j) eqn:Em; auto.
        symmetry. apply Znth_None. lia.
      - unfold entry. rewrite (Znth_None M i) by lia. destruct (Znth M j) eqn:Em; auto.
        symmetry. apply Znth_None. lia. }
    intros i j. destruct (Z_lt_dec i j); [auto|]. destruct (Z.eq_dec i j) as [->|]; auto. symmetry. apply T. lia.
  - intros i e He. rewrite Di in He; [congruence|]. unfold entry in He. destruct (Znth M i) eqn:Em; [|easy].
    apply Znth_Some_lt in Em. destruct Q. lia.
Qed.

(** For a symmetric matrix of distances, every entry off the diagonal is d_ij / sqrt(r_i r_j). *)
Lemma rescaled_entry k D M i j d row_i row_j ri rj :
  square D (zlen D) -> symmetric D -> rescaled k D M -> i <> j ->
  entry D i j = Some d -> Znth D i = Some row_i -> Znth D j = Some row_j ->
  kth_smallest k row_i ri -> kth_smallest k row_j rj ->
  entry M i j = Some (if Rlt_dec 0 (ri * rj) then Some (d / sqrt (ri * rj))%R else None).
Proof.
  intros QD SD HR N Hd Hi Hj Ki Kj. pose proof (proj1 (rescaled_symmetric _ _ _ QD HR)) as SM.
  destruct HR as (Q & Di & r & Lr & Kr & E).
  pose proof (Znth_Some_lt _ _ _ Hi). pose proof (Znth_Some_lt _ _ _ Hj).
  destruct (Znth_ex r i) as [v Hv]; [lia|]. destruct (Znth_ex r j) as [w Hw]; [lia|].
  assert (v = ri) by (eapply kth_unique; eauto). assert (w = rj) by (eapply kth_unique; eauto). subst v w.
  assert (T : exists e, entry M i j = Some e /\
    ((0 < ri * rj)%R -> e = Some (d / sqrt (ri * rj))%R) /\ ((ri * rj <= 0)%R -> e = None)).
  { destruct (Z_lt_dec i j) as [L|L].
    - destruct (E _ _ _ _ _ L Hd Hv Hw) as (e & E1 & _ & E3). eauto.
    - assert (L' : j < i) by lia. rewrite SD in Hd. destruct (E _ _ _ _ _ L' Hd Hw Hv) as (e & _ & E2 & E3).
      rewrite (Rmult_comm rj ri) in E3. eauto. }
  destruct T as (e & -> & E1 & E2). f_equal. destruct (Rlt_dec 0 (ri * rj)); [auto|]. apply E2. lra.
Qed.
Theorem rescaled_formula k D M i j d row_i row_j ri rj :
  square D (zlen D) -> symmetric D -> rescaled k D M -> i <> j ->
  entry D i j = Some d -> Znth D i = Some row_i -> Znth D j = Some row_j ->
  kth_smallest k row_i ri -> kth_smallest k row_j rj -> (0 < ri)%R -> (0 < rj)%R ->
  entry M i j = Some (Some (d / sqrt (ri * rj))%R).
Proof.
  intros. erewrite rescaled_entry; eauto. destruct (Rlt_dec 0 (ri * rj)) as [|n]; auto.
  destruct n. now apply Rmult_lt_0_compat.
Qed.

(** Multiplying all distances by a positive constant changes nothing. *)
Theorem consistent_scale_invariant argsort argsort' k D c :
  (0 < c)%R ->
  (forall row, In row D -> sorts row (argsort row)) ->
  (forall row, In row (map (map (Rmult c)) D) -> sorts row (argsort' row)) ->
  square D (zlen D) -> D <> [] -> 0 <= k ->
  consistent_rescaling argsort' k (map (map (Rmult c)) D) = consistent_rescaling argsort k D.
Proof.
  intros C S S' Q NE K. set (D' := map (map (Rmult c)) D) in *.
  assert (LD : zlen D' = zlen D) by apply zlen_map.
  assert (Q' : square D' (zlen D')).
  { split; auto. rewrite LD. intros row Hrow. apply in_map_iff in Hrow as (row' & <- & Hr).
    rewrite zlen_map. now apply Q. }
  assert (NE' : D' <> []) by (unfold D'; destruct D; easy).
  destruct (Z_lt_dec k (zlen D)) as [L|L].
  - destruct (consistent_ok argsort k D S Q ltac:(lia)) as (M & -> & HR).
    apply consistent_rescaling_spec; auto. split; [lia|].
    destruct HR as (QM & Di & r & Lr & Kr & E). unfold rescaled. rewrite LD. split; auto. split; auto.
    exists (map (Rmult c) r). split; [now rewrite zlen_map|]. split.
    + intros i row v Hrow Hv. unfold D' in Hrow. rewrite Znth_map in Hrow. rewrite Znth_map in Hv.
      destruct (Znth D i) as [row'|] eqn:E1; [|easy]. destruct (Znth r i) as [v'|] eqn:E2; [|easy].
      injection Hrow as <-. injection Hv as <-. apply kth_scale; eauto.
    + intros i j d ri rj L' Hd Hri Hrj. unfold D' in Hd. rewrite entry_map in Hd. rewrite Znth_map in Hri. rewrite Znth_map in Hrj.
      destruct (entry D i j) as [d'|] eqn:E1; [|easy]. destruct (Znth r i) as [ri'|] eqn:E2; [|easy].
      destruct (Znth r j) as [rj'|] eqn:E3; [|easy]. injection Hd as <-. injection Hri as <-. injection Hrj as <-.
      destruct (E _ _ _ _ _ L' E1 E2 E3) as (e & H1 & H2 & H3 & H4). exists e. split; auto. split; auto.
      assert (EQ : (c * ri' * (c * rj') = (c * c) * (ri' * rj'))%R) by ring.
      assert (CC : (0 < c * c)%R) by now apply Rmult_lt_0_compat. split; intro P.
      * rewrite EQ in P. assert (0 < ri' * rj')%R.
        { apply (Rmult_lt_reg_l (c * c)); auto. now rewrite Rmult_0_r. }
        rewrite EQ.
        rewrite H3 by auto. f_equal. rewrite (sqrt_mult (c * c)) by lra. rewrite sqrt_square by lra.
        assert (sqrt (ri' * rj') <> 0)%R by (apply Rgt_not_eq; now apply sqrt_lt_R0). field. split; auto; lra.
      * apply H4. rewrite EQ in P. apply (Rmult_le_reg_l (c * c)); auto. now rewrite Rmult_0_r.
  - rewrite (consistent_rescaling_rank_error argsort) by (auto; lia).
    apply consistent_rescaling_rank_error; auto. lia.
Qed.

(** Relabelling the points relabels the result: for a symmetric D, if entry (i, j) of D' is entry
    (s i, s j) of D for a permutation s of the indices, the same holds of the results. *)
Theorem consistent_relabel argsort k D D' M M' s :
  (forall row, In row D -> sorts row (argsort row)) -> (forall row, In row D' -> sorts row (argsort row)) ->
  square D (zlen D) -> square D' (zlen D) -> symmetric D -> D <> [] -> 0 <= k ->
  Permutation s (arange (zlen D)) ->
  (forall i j si sj, Znth s i = Some si -> Znth s j = Some sj -> entry D' i j = entry D si sj) ->
  consistent_rescaling argsort k D = Ok M -> consistent_rescaling argsort k D' = Ok M' ->
  forall i j si sj, Znth s i = Some si -> Znth s j = Some sj -> entry M' i j = entry M si sj.
Proof.
  intros S S' Q Q' SD NE K P HD HM HM' i j si sj Hi Hj.
  assert (LD : zlen D' = zlen D) by apply Q'.
  assert (NE' : D' <> []). { intros ->. destruct D; [easy|]. rewrite zlen_cons in LD. pose proof (zlen_nonneg D). cbn in LD. lia. }
  assert (Ls : zlen s = zlen D).
  { unfold zlen in *. rewrite (Permutation_length P). unfold arange, tabZ. rewrite map_length, seq_length. lia. }
  assert (Bs : forall i si, Znth s i = Some si -> 0 <= i < zlen D /\ 0 <= si < zlen D).
  { intros a b H. split; [rewrite <- Ls; eapply Znth_Some_lt; eauto|].
    apply In_arange. eapply Permutation_in; [exact P|eapply Znth_In; eauto]. }
  assert (Ns : NoDup s) by (eapply Permutation_NoDup; [symmetry; exact P|apply NoDup_arange]).
  assert (SD' : symmetric D').
  { intros a b. destruct (Z_le_dec 0 a), (Z_lt_dec a (zlen D)), (Z_le_dec 0 b), (Z_lt_dec b (zlen D)).
    1:{ destruct (Znth_ex s a) as [sa Ha]; [lia|]. destruct (Znth_ex s b) as [sb Hb]; [lia|].
        rewrite (HD _ _ _ _ Ha Hb), (HD _ _ _ _ Hb Ha). apply SD. }
    all: assert (Out : forall a b, (a < 0 \/ zlen D <= a \/ b < 0 \/ zlen D <= b) -> entry D' a b = None)
      by (intros x y O; unfold entry; destruct (Znth D' x) eqn:Ex; auto;
          pose proof (Znth_Some_lt _ _ _ Ex); pose proof (proj2 Q' _ (Znth_In _ _ _ Ex)); apply Znth_None; lia).
    all: rewrite !Out by lia; reflexivity. }
  assert (Kth : forall i si row row' v, Znth s i = Some si -> Znth D si = Some row -> Znth D' i = Some row' ->
    kth_smallest k row v -> kth_smallest k row' v).
  { intros a sa row row' v Ha Hrow Hrow'. apply kth_perm.
    set (f := fun i => match Znth row i with Some x => x | None => 0%R end).
    assert (Lrow : zlen row = zlen D) by (apply Q; eapply Znth_In; eauto).
    assert (row' = map f s) as ->.
    { assert (zlen row' = zlen D) by (apply Q'; eapply Znth_In; eauto).
      apply Znth_ext; [rewrite zlen_map; congruence|]. intros b Hb. rewrite Znth_map.
      destruct (Znth_ex s b) as [sb Hsb]; [lia|]. rewrite Hsb. cbn [option_map]. specialize (HD a b sa sb Ha Hsb).
      unfold entry in HD. rewrite Hrow, Hrow' in HD. rewrite HD. unfold f.
      destruct (Znth_ex row sb) as [x Hx]; [destruct (Bs _ _ Hsb); lia|]. now rewrite Hx. }
    symmetry. transitivity (map f (arange (zlen D))); [now apply Permutation_map|]. unfold f. rewrite <- Lrow.
    now rewrite map_Znth_arange. }
  rewrite consistent_rescaling_spec in HM, HM' by (auto; now rewrite LD).
  destruct HM as [L HR], HM' as [L' HR']. destruct (Bs _ _ Hi) as [Bi Bsi], (Bs _ _ Hj) as [Bj Bsj].
  destruct (Z.eq_dec i j) as [->|N].
  - rewrite Hi in Hj. injection Hj as <-. destruct HR as (_ & -> & _); auto. destruct HR' as (_ & -> & _); auto. now rewrite LD.
  - assert (si <> sj). { intros <-. apply N. eapply GraphProofs.NoDup_Znth; eauto. }
    destruct (square_entry D _ si sj Q Bsi Bsj) as [d Hd].
    destruct (Znth_ex D si) as [row_i Ri]; auto. destruct (Znth_ex D sj) as [row_j Rj]; auto.
    destruct (Znth_ex D' i) as [row_i' Ri']; [lia|]. destruct (Znth_ex D' j) as [row_j' Rj']; [lia|].
    assert (Kv : forall a row, Znth D a = Some row -> exists v, kth_smallest k row v).
    { intros a row Ha. destruct HR as (_ & _ & r & Lr & Kr & _). pose proof (Znth_Some_lt _ _ _ Ha).
      destruct (Znth_ex r a) as [v Hv]; [lia|]. eauto. }
    destruct (Kv _ _ Ri) as [ri Hri], (Kv _ _ Rj) as [rj Hrj].
    rewrite (rescaled_entry k D M si sj d row_i row_j ri rj) by auto.
    apply (rescaled_entry k D' M' i j d row_i' row_j' ri rj); eauto.
    + now rewrite LD.
    + rewrite (HD _ _ _ _ Hi Hj). exact Hd.
Qed.

(** ** ConsecutiveRescaling *)
Lemma scale_fold factor n l : NoDup l -> forall x, square x n ->
  let x' := fold_left (fun x i => set2 x i (i + 1) (get2 0%R x i (i + 1) * factor)%R) l x in
  square x' n /\ forall i j d, entry x i j = Some d ->
    entry x' i j = Some (if in_dec Z.eq_dec i l then if Z.eq_dec j (i + 1) then (d * factor)%R else d else d).
Proof.
  induction 1 as [|a l Na Nl IH]; intros x Q; cbn [fold_left].
  - split; auto.
  - destruct (IH (set2 x a (a + 1) (get2 0%R x a (a + 1) * factor)%R) (square_set2 _ _ _ _ _ Q)) as [Q' E']. split; auto.
    intros i j d H.
    assert (Ei : entry (set2 x a (a + 1) (get2 0%R x a (a + 1) * factor)%R) i j =
      Some (if (i =? a) && (j =? a + 1) then (d * factor)%R else d)).
    { rewrite entry_set2, H. destruct (Z.eqb_spec i a); cbn [andb]; auto. destruct (Z.eqb_spec j (a + 1)); auto. subst.
      now rewrite (get2_entry _ _ _ _ _ H). }
    rewrite (E' _ _ _ Ei). f_equal. destruct (Z.eqb_spec i a) as [->|D]; cbn [andb].
    + destruct (in_dec Z.eq_dec a l); [easy|]. destruct (in_dec Z.eq_dec a (a :: l)) as [|n']; [|destruct n'; now left].
      destruct (Z.eqb_spec j (a + 1)), (Z.eq_dec j (a + 1)); auto; lia.
    + destruct (in_dec Z.eq_dec i l), (in_dec Z.eq_dec i (a :: l)) as [I|I]; auto.
      * destruct I. now right.
      * destruct I; [congruence|easy].
Qed.

(** x' is x with the entries (i, i + 1) multiplied by the factor. *)
Definition consecutive_of (factor : R) (x x' : list (list R)) : Prop :=
  square x' (zlen x) /\ forall i j d, entry x i j = Some d ->
    entry x' i j = Some (if Z.eq_dec j (i + 1) then (d * factor)%R else d).
Lemma consecutive_of_unique factor x x' x'' : square x (zlen x) ->
  consecutive_of factor x x' -> consecutive_of factor x x'' -> x' = x''.
Proof.
  intros Q [Q1 E1] [Q2 E2]. eapply entry_ext; eauto. intros i j Hi Hj.
  destruct (square_entry x _ i j Q Hi Hj) as [d Hd]. now rewrite (E1 _ _ _ Hd), (E2 _ _ _ Hd).
Qed.
Lemma scale_superdiagonal_ok factor x : square x (zlen x) ->
  consecutive_of factor x (scale_superdiagonal factor (zlen x) x).
Proof.
  intro Q. unfold scale_superdiagonal.
  destruct (scale_fold factor (zlen x) (arange (zlen x - 1)) (NoDup_arange _) x Q) as [Q' E']. split; auto.
  intros i j d H. rewrite (E' _ _ _ H). f_equal. destruct (in_dec Z.eq_dec i (arange (zlen x - 1))) as [|N]; auto.
  destruct (Z.eq_dec j (i + 1)); auto. destruct N. apply In_arange. unfold entry in H.
  destruct (Znth x i) as [row|] eqn:E; [|easy]. pose proof (proj2 Q _ (Znth_In _ _ _ E)).
  apply Znth_Some_lt in H, E. lia.
Qed.

(** The distance matrices of the samples: given, or computed; ... *)
Definition distances {P} (pd : P -> res (list (list R))) (X : collection P) (Ds : list (list (list R))) : Prop :=
  match X with Precomputed _ mats => Ds = mats | Clouds cs => Forall2 (fun c D => pd c = Ok D) cs Ds end.
(** ... in each, only the entries (i, i + 1) are multiplied.  The input is not modified.  *)
Theorem consecutive_transform_spec {P} (pd : P -> res (list (list R))) check factor factor_int X Ds :
  distances pd X Ds -> (forall D, In D Ds -> square D (zlen D)) ->
  (forall D, In D Ds -> exists D', check D = Ok D') ->
  match X with Precomputed is_int _ => is_int = true -> factor_int = true | Clouds _ => True end ->
  exists Xt, consecutive_transform pd check factor factor_int X = Ok (Xt, X) /\ Forall2 (consecutive_of factor) Ds Xt.
Proof.
  intros HD Q C HI. exists (map (fun x => scale_superdiagonal factor (zlen x) x) Ds). split.
  - destruct X as [is_int mats|cs]; cbn [distances consecutive_transform] in *.
    + subst mats. destruct (mapM_list_ok Ds check (fun _ _ => True)) as (l & -> & _).
      { intros D H. destruct (C D H) as [D' H']. eauto. }
      cbn [bind]. destruct is_int, factor_int; cbn; auto. discriminate (HI eq_refl).
    + rewrite (mapM_Forall2 _ _ _ HD). reflexivity.
  - clear - Q. induction Ds as [|D Ds IH]; cbn; constructor.
    + apply scale_superdiagonal_ok, Q. now left.
    + apply IH. intros; apply Q; now right.
Qed.
(** Integer distance matrices and a factor which is a float, as the default 0.: a TypeError. *)
Theorem consecutive_integer_error {P} (pd : P -> res (list (list R))) check factor mats :
  (forall D, In D mats -> exists D', check D = Ok D') ->
  consecutive_transform pd check factor false (Precomputed true mats) = Err TypeError.
Proof.
  intro C. cbn. destruct (mapM_list_ok mats check (fun _ _ => True)) as (l & -> & _); auto.
  intros D H. destruct (C D H) as [D' H']. eauto.
Qed.

(** Examples *)
Lemma entry_out {A} (M : list (list A)) n i j : square M n -> (i < 0 \/ n <= i \/ j < 0 \/ n <= j) -> entry M i j = None.
Proof.
  intros [Q1 Q2] O. unfold entry. destruct (Znth M i) eqn:E; auto. pose proof (Znth_Some_lt _ _ _ E).
  apply Znth_None. rewrite (Q2 _ (Znth_In _ _ _ E)). lia.
Qed.
Lemma symmetric_square {A} (M : list (list A)) n : square M n ->
  (forall i j, 0 <= i < n -> 0 <= j < n -> i < j -> entry M i j = entry M j i) -> symmetric M.
Proof.
  intros Q H i j. destruct (Z_le_dec 0 i), (Z_lt_dec i n), (Z_le_dec 0 j), (Z_lt_dec j n);
    try (now rewrite !(entry_out M n) by (auto; lia)).
  destruct (Z_lt_dec i j); [apply H; lia|]. destruct (Z.eq_dec i j) as [->|]; auto. symmetry. apply H; lia.
Qed.
Definition D3 : list (list R) := [[0; 1; 4]; [1; 0; 4]; [4; 4; 0]]%R.
Lemma D3_square : square D3 (zlen D3).
Proof. split; auto. intros r [<-|[<-|[<-|[]]]]; reflexivity. Qed.
Ltac kth := unfold kth_smallest, how_many, zlen; cbn [filter];
  repeat (match goal with |- context [Rlt_dec ?a ?b] => destruct (Rlt_dec a b); [try lra|try lra] | |- context [Rle_dec ?a ?b] => destruct (Rle_dec a b); [try lra|try lra] end; cbn [filter]);
  cbn; try lia.
Example D3_rescaled : rescaled 1 D3
  [[Some 0; Some 1; Some (4 / sqrt 4)]; [Some 1; Some 0; Some (4 / sqrt 4)]; [Some (4 / sqrt 4); Some (4 / sqrt 4); Some 0]]%R.
Proof.
  split; [split; auto; intros r [<-|[<-|[<-|[]]]]; reflexivity|]. split.
  - intros i Hi. change (zlen D3) with 3 in Hi. assert (i = 0 \/ i = 1 \/ i = 2) as [->|[->| ->]] by lia; reflexivity.
  - exists [1; 1; 4]%R. split; auto. split.
    + intros i row v Hrow Hv. pose proof (Znth_Some_lt _ _ _ Hrow) as B. change (zlen D3) with 3 in B.
      assert (i = 0 \/ i = 1 \/ i = 2) as [->|[->| ->]] by lia; cbn in Hrow, Hv; injection Hrow as <-; injection Hv as <-; kth.
    + intros i j d ri rj L Hd Hri Hrj. pose proof (Znth_Some_lt _ _ _ Hri) as B. pose proof (Znth_Some_lt _ _ _ Hrj) as B'.
      change (zlen [1; 1; 4]%R) with 3 in B, B'.
      assert ((i = 0 /\ j = 1) \/ (i = 0 /\ j = 2) \/ (i = 1 /\ j = 2)) as [[-> ->]|[[-> ->]|[-> ->]]] by lia;
        cbn in Hd, Hri, Hrj; injection Hd as <-; injection Hri as <-; injection Hrj as <-;
        (eexists; split; [reflexivity|]; split; [reflexivity|]; split; [intros _|lra]); f_equal.
      * rewrite Rmult_1_l, sqrt_1. lra.
      * now rewrite Rmult_1_l.
      * now rewrite Rmult_1_l.
Qed.
(** Two coinciding points and neighbor_rank 1: the entry is not finite (0 / 0). *)
Example coincident_not_finite M : rescaled 1 [[0; 0; 1]; [0; 0; 1]; [1; 1; 0]]%R M -> entry M 0 1 = Some None.
Proof.
  intros (_ & _ & r & Lr & Kr & E). change (zlen _) with 3 in Lr at 2.
  destruct (Znth_ex r 0) as [v Hv]; [lia|]. destruct (Znth_ex r 1) as [w Hw]; [lia|].
  assert (v = 0%R). { eapply kth_unique; [apply (Kr 0 [0; 0; 1]%R); [reflexivity|exact Hv]|]. kth. }
  assert (w = 0%R). { eapply kth_unique; [apply (Kr 1 [0; 0; 1]%R); [reflexivity|exact Hw]|]. kth. }
  destruct (E 0 1 0%R v w ltac:(lia) eq_refl Hv Hw) as (e & -> & _ & _ & H2). f_equal. apply H2. subst. lra.
Qed.
(** ConsecutiveRescaling does not keep distance matrices symmetric: (i + 1, i) is left as it is. *)
Theorem consecutive_symmetric_refuted :
  ~ (forall factor x x', symmetric x -> square x (zlen x) -> consecutive_of factor x x' -> symmetric x').
Proof.
  intro H. pose (x := [[0; 1]; [1; 0]]%R).
  assert (Q : square x (zlen x)) by (split; auto; intros r [<-|[<-|[]]]; reflexivity).
  assert (S : symmetric x).
  { apply (symmetric_square x 2 Q). intros i j Hi Hj L. assert (i = 0) by lia. assert (j = 1) by lia. subst. reflexivity. }
  pose proof (scale_superdiagonal_ok 2 x Q) as C. specialize (H 2%R x _ S Q C 0 1).
  destruct C as [_ C]. rewrite (C 0 1 1%R eq_refl), (C 1 0 1%R eq_refl) in H. cbn in H. injection H. lra.
Qed.

Print Assumptions consistent_rescaling_spec.
Print Assumptions consistent_rescaling_rank_error.
Print Assumptions consistent_transform_spec.
Print Assumptions rescaled_symmetric.
Print Assumptions rescaled_formula.
Print Assumptions consistent_scale_invariant.
Print Assumptions consistent_relabel.
Print Assumptions consecutive_transform_spec.
Print Assumptions consecutive_integer_error.
Print Assumptions consecutive_symmetric_refuted.
