(** C94, second part: cubical persistence and features of images that are
    reflected or whose axes are permuted. *)
From Coq Require Import Reals Permutation Lra.
From Verif Require CurveThms2 ImgSymThms2.
From Verif Require Import PipeProofs.
From Verif Require Import Np NpFacts Fl FlFacts Nd NdFacts DiagTypes DiagModel DiagSpec DiagThms HomModel HomSpec HomProofs HomThms
  ImgSpec ImgProofs3 ImgProofs4 ImgSymSpec ImgSymThms ImgFlowSpec ImgFlowThms.
Open Scope Z_scope.

(** ** Diagrams are determined up to order by their rows of each dimension *)
Lemma filter_comm {A} (f g : A -> bool) l : filter f (filter g l) = filter g (filter f l).
Proof. induction l as [|a l IH]; [reflexivity|]. cbn. destruct (f a) eqn:F, (g a) eqn:G; cbn; rewrite ?F, ?G, ?IH; reflexivity. Qed.
Lemma filter_split {A} (f : A -> bool) l : Permutation l (filter f l ++ filter (fun x => negb (f x)) l).
Proof.
  induction l as [|a l IH]; [constructor|]. cbn. destruct (f a); cbn; [now constructor|]. now apply Permutation_cons_app.
Qed.
Lemma perm_by_label dims : forall r r' : diagram,
  (forall p, In p r -> exists d, In d dims /\ pq p = fz d) -> (forall p, In p r' -> exists d, In d dims /\ pq p = fz d) ->
  (forall d, In d dims -> Permutation (rows_of (fz d) r) (rows_of (fz d) r')) -> Permutation r r'.
Proof.
  induction dims as [|d dims IH]; intros r r' H H' P.
  - destruct r as [|p r]; [|destruct (H p (or_introl eq_refl)) as (? & [] & _)].
    destruct r' as [|p r']; [constructor|destruct (H' p (or_introl eq_refl)) as (? & [] & _)].
  - rewrite (filter_split (fun p => feq (pq p) (fz d)) r), (filter_split (fun p => feq (pq p) (fz d)) r').
    apply Permutation_app; [apply (P d); now left|].
    assert (K : forall t : diagram, (forall p, In p t -> exists e, In e (d :: dims) /\ pq p = fz e) ->
      forall p, In p (filter (fun x => negb (feq (pq x) (fz d))) t) -> exists e, In e dims /\ pq p = fz e).
    { intros t Ht p I. apply filter_In in I as [I N]. destruct (Ht p I) as (e & [<-|J] & E); [|eauto]. rewrite E, feq_fz in N. lia. }
    apply IH; [now apply K|now apply K|]. intros e J. unfold rows_of. rewrite !(filter_comm _ (fun x => negb (feq (pq x) (fz d)))).
    apply perm_filter, (P e). now right.
Qed.

(** ** Same points in every dimension give the same diagrams up to order *)
Lemma slot_same {A} n n' (L L' : list (list A)) : Forall2 (@Permutation A) L L' -> is_slot_count n L -> is_slot_count n' L' -> n <= n'.
Proof.
  intros F (H1 & _ & H3) (H1' & H2' & _). destruct H3 as [->|(l & I & <-)]; auto.
  assert (exists l', In l' L' /\ Permutation l l') as (l' & I' & P).
  { clear - F I. induction F as [|a b L L' P F IH]; destruct I; [subst; exists b; split; [now left|auto]|]. destruct (IH H) as (l' & J & Q). exists l'. split; [now right|auto]. }
  rewrite (perm_zlen _ _ P). now apply H2'.
Qed.
Lemma padding_le m m' L L' : Forall2 (@Permutation pt) L L' -> is_padding_value m L -> is_padding_value m' L' ->
  m = m' \/ fle m m' = true.
Proof.
  intros F H H'. assert (T : forall x p, In x L' -> In p x -> exists y, In y L /\ In p y).
  { intros x p I J. destruct (reordered_in L' L x (reordered_sym _ _ F) I) as (y & Iy & P). exists y. split; auto. apply (Permutation_in p P J). }
  assert (T' : forall x p, In x L -> In p x -> exists y, In y L' /\ In p y).
  { intros x p I J. destruct (reordered_in L L' x F I) as (y & Iy & P). exists y. split; auto. apply (Permutation_in p P J). }
  destruct H' as [[-> E']|[(x & p & I & J & <-) _]], H as [[-> E]|[(y & q & I' & J' & Eq) LE]]; auto.
  - exfalso. destruct (T' y q I' J') as (z & Iz & Jz). now rewrite (E' z Iz) in Jz.
  - exfalso. destruct (T x p I J) as (z & Iz & Jz). now rewrite (E z Iz) in Jz.
  - right. destruct (T x p I J) as (z & Iz & Jz). eauto.
Qed.
Lemma padding_same m m' L L' : Forall2 (@Permutation pt) L L' -> is_padding_value m L -> is_padding_value m' L' -> m = m'.
Proof.
  intros F H H'. destruct (padding_le m m' L L' F H H') as [|A]; auto.
  destruct (padding_le m' m L' L (reordered_sym _ _ F) H' H) as [|B]; auto. now apply fle_antisym.
Qed.
Lemma transform_same {A} junk (dg dg' : A -> backend) f f' reduced X X' R R' :
  X <> [] -> f_dims f <> [] -> NoDup (f_dims f) -> f_dims f' = f_dims f -> f_inf f' = f_inf f ->
  (forall x dim, In x X -> In dim (f_dims f) -> has_dimension (dg x) dim) ->
  (forall x dim, In x X' -> In dim (f_dims f) -> has_dimension (dg' x) dim) ->
  Forall2 (fun x x' => forall dim, In dim (f_dims f) ->
    Permutation (nontrivial_rows reduced (f_inf f) (dg x) dim) (nontrivial_rows reduced (f_inf f) (dg' x') dim)) X X' ->
  hom_transform junk dg f reduced X = Ok R -> hom_transform junk dg' f' reduced X' = Ok R' -> reordered R R'.
Proof.
  intros HX Hd HN E1 E2 HD HD' F ER ER'. assert (HX' : X' <> []) by (destruct F; easy).
  destruct (transform_ok junk dg f reduced X HX Hd HN HD) as (R0 & ER0 & L & HM & _). assert (R0 = R) as -> by congruence.
  destruct (transform_ok junk dg' f' reduced X' HX') as (R0' & ER0' & L' & HM' & _); [now rewrite E1|now rewrite E1|now rewrite E1|].
  assert (R0' = R') as -> by congruence. rewrite E1, E2 in HM'. pose proof (Forall2_zlen _ _ _ F) as LX.
  assert (PP : forall dim, In dim (f_dims f) -> exists n m,
     map (rows_of (fz dim)) R = map (fun x => padded n m (fz dim) (nontrivial_rows reduced (f_inf f) (dg x) dim)) X /\
     map (rows_of (fz dim)) R' = map (fun x => padded n m (fz dim) (nontrivial_rows reduced (f_inf f) (dg' x) dim)) X').
  { intros dim I. unfold hom_transform in ER, ER'. rewrite E1, E2 in ER'.
    destruct (postprocess_rows_of_dimension junk (map dg X) (f_dims f) (f_inf f) reduced R) with (dim := dim) as (n & m & S & P & Q); auto.
    { destruct X; easy. } { intros b e Ib. apply in_map_iff in Ib as (x & <- & Ix). auto. }
    destruct (postprocess_rows_of_dimension junk (map dg' X') (f_dims f) (f_inf f) reduced R') with (dim := dim) as (n' & m' & S' & P' & Q'); auto.
    { destruct X'; easy. } { intros b e Ib. apply in_map_iff in Ib as (x & <- & Ix). auto. }
    rewrite !map_map in *.
    assert (G : Forall2 (@Permutation pt) (map (fun x => nontrivial_rows reduced (f_inf f) (dg x) dim) X) (map (fun x => nontrivial_rows reduced (f_inf f) (dg' x) dim) X')).
    { clear - F I. induction F; constructor; auto. }
    exists n, m. split; [exact Q|]. assert (n = n') as ->.
    { apply Z.le_antisymm; [exact (slot_same _ _ _ _ G S S')|exact (slot_same _ _ _ _ (reordered_sym _ _ G) S' S)]. }
    now rewrite (padding_same m m' _ _ G P P'). }
  apply CurveThms2.Forall2_of_Znth; [unfold diagram in *; lia|]. intros i r r' Hi Hi'.
  assert (B : 0 <= i < zlen R) by (eapply Znth_Some_lt; eauto).
  destruct (Znth_ex X i) as [x Hx]; [lia|]. destruct (Znth_ex X' i) as [x' Hx']; [lia|].
  apply (perm_by_label (f_dims f)).
  - exact (proj2 (HM _ _ _ Hx Hi)).
  - exact (proj2 (HM' _ _ _ Hx' Hi')).
  - intros dim I. destruct (PP dim I) as (n & m & Q & Q').
    apply (f_equal (fun L => Znth L i)) in Q. unfold diagram in *. rewrite !Znth_map, Hi, Hx in Q. cbn in Q. injection Q as ->.
    apply (f_equal (fun L => Znth L i)) in Q'. unfold diagram in *. rewrite !Znth_map, Hi', Hx' in Q'. cbn in Q'. injection Q' as ->.
    pose proof (Forall2_Znth _ _ _ _ _ _ F Hx Hx' dim I) as P. unfold padded. rewrite (perm_zlen _ _ P). now apply Permutation_app_tail.
Qed.

(** ** Cubical persistence *)
Lemma passed_pixel s X F v : passed_as s X F -> pixel F v <-> exists x, In x X /\ In v (ndata x).
Proof.
  intros [->| ->]; cbn; [tauto|]. rewrite in_concat. split.
  - intros (l & I & J). apply in_map_iff in I as (x & <- & Ix). eauto.
  - intros (x & I & J). exists (ndata x). split; auto. now apply in_map.
Qed.
Lemma moved_pixel s s' sigma X X' v : grid_bijection s s' sigma -> ImgSpec.images s X -> ImgSpec.images s' X' ->
  Forall2 (moved s s' sigma) X X' -> (exists x, In x X /\ In v (@ndata fl x)) <-> (exists x, In x X' /\ In v (ndata x)).
Proof.
  intros B [_ HX] [_ HX'] F. assert (G : forall x x', In x X -> In x' X' -> moved s s' sigma x x' -> In v (ndata x) <-> In v (ndata x')).
  { intros x x' I I' M. rewrite (In_ndata x) by (now apply HX). rewrite (In_ndata x') by (now apply HX'). pose proof (moved_get s s' sigma x x' B M) as G. destruct M as (S & S' & _).
    destruct B as (_ & B1 & _ & B2). split; intros [idx E].
    - exists (sigma idx). rewrite G; auto. apply at_inside in E. congruence.
    - destruct (B2 idx) as (p & Ip & <-); [apply at_inside in E; congruence|]. exists p. now rewrite G in E. }
  apply Forall2_In2 in F. revert F. generalize X at 2 3 as L. generalize X' at 2 3 as L'. intros L' L F. induction F as [|x x' L L' (I & I' & M) F IH].
  - split; intros (? & [] & _).
  - specialize (G x x' I I' M). split; intros (y & [<-|J] & K).
    + exists x'. split; [now left|tauto].
    + destruct (proj1 IH) as (z & Iz & Jz); [eauto|]. exists z. split; [now right|auto].
    + exists x. split; [now left|tauto].
    + destruct (proj2 IH) as (z & Iz & Jz); [eauto|]. exists z. split; [now right|auto].
Qed.
Lemma cubical_dims dims periodic inf F c : cubical_fit dims periodic inf F = Ok c -> forall F' inf' c', cubical_fit dims periodic inf' F' = Ok c' -> f_dims (c_fit c') = f_dims (c_fit c).
Proof.
  intros H F' inf' c' H'. unfold cubical_fit in H, H'. apply bind_iff in H as (? & _ & H). apply bind_iff in H as (? & _ & H). apply bind_iff in H as (? & E & H). injection H as <-.
  apply bind_iff in H' as (? & _ & H'). apply bind_iff in H' as (? & _ & H'). apply bind_iff in H' as (? & E' & H'). injection H' as <-. cbn.
  unfold hom_fit in E, E'. apply bind_iff in E as (? & _ & E). apply bind_iff in E as (? & _ & E). injection E as <-.
  apply bind_iff in E' as (? & _ & E'). apply bind_iff in E' as (? & _ & E'). injection E' as <-. reflexivity.
Qed.
Lemma same_classes_rows reduced inf l l' dim : same_classes l l' ->
  Permutation (nontrivial_rows reduced inf (Tagged l) dim) (nontrivial_rows reduced inf (Tagged l') dim).
Proof.
  intro S. unfold nontrivial_rows. cbn [backend_points without_infinite_class]. fold (classes dim l) (classes dim l').
  apply perm_filter, Permutation_map. destruct (S dim) as [[-> ->]|(e & t & t' & -> & -> & P)]; destruct (reduced && (dim =? 0)); cbn [tl]; auto.
Qed.

(** CubicalPersistence (not periodic), fitted on a collection of images and on the
    same images reflected or with permuted axes, gives the same diagrams for
    images and the moved images: the same rows, in any order, including padding. *)
Theorem cubical_diagrams_symmetric :
  forall (junk : pt) gudhi dims infinity_values reduced s s' sigma X X' F F',
    grid_symmetry s s' sigma -> blind_to_orientation gudhi s s' sigma ->
    dims <> [] -> NoDup dims -> (forall d, In d dims -> 0 <= d) ->
    ImgSpec.images s X -> ImgSpec.images s' X' -> passed_as s X F -> passed_as s' X' F' ->
    Forall2 (moved s s' sigma) X X' ->
    (forall x, In x X -> ndata x <> []) -> (forall x v, In x X -> In v (ndata x) -> isnan v = false) ->
    exists c c', cubical_fit dims None infinity_values F = Ok c /\ cubical_fit dims None infinity_values F' = Ok c' /\
      forall Y Y', ImgSpec.images s Y -> ImgSpec.images s' Y' -> Forall2 (moved s s' sigma) Y Y' ->
        exists R R', cubical_transform junk gudhi c reduced Y = Ok R /\ cubical_transform junk gudhi c' reduced Y' = Ok R' /\
          reordered R R'.
Proof.
  intros junk gudhi dims inf reduced s s' sigma X X' F F' [GB _] HG Hd HN H0 HX HX' HF HF' M HNE Hnan.
  assert (P : forall v, pixel F v <-> pixel F' v).
  { intro v. rewrite (passed_pixel s X F v HF), (passed_pixel s' X' F' v HF'). now apply (moved_pixel s s' sigma). }
  assert (NE' : forall x', In x' X' -> ndata x' <> []).
  { pose proof (Forall2_In2 _ _ _ M) as K. intros x' I'. assert (exists x, In x X /\ moved s s' sigma x x') as (x & I & Mx).
    { clear - K I'. revert K. generalize X at 1 as L. generalize dependent X'. intros X' I' L K.
      assert (G : forall A (l : list A) B (l' : list B) (R : A -> B -> Prop) b, Forall2 R l l' -> In b l' -> exists a, In a l /\ R a b).
      { intros A l B l' R b W. induction W as [|a0 b0 l l' Q W IH]; intros []; [subst; exists a0; split; [now left|auto]|]. destruct (IH H) as (a & Ia & Ra). exists a. split; [now right|auto]. }
      destruct (G _ _ _ _ _ x' K I') as (a & Ia & (Ja & _ & Ma)). exists a. split; auto. }
    pose proof (HNE x I) as N. destruct (ndata x) as [|v l] eqn:Ex; [easy|]. assert (Iv : In v (ndata x)) by (rewrite Ex; now left).
    apply In_ndata in Iv as [idx E]; [|now apply HX]. pose proof (moved_get s s' sigma x x' GB Mx idx) as G. destruct Mx as (Sx & _).
    rewrite <- G in E by (apply at_inside in E; congruence). apply nget_In in E. intro Z0. now rewrite Z0 in E. }
  assert (HP : forall t Z G, Z <> [] -> passed_as t Z G -> (forall x, In x Z -> ndata x <> []) -> has_pixels G /\ number_of_images G (zlen Z)).
  { intros t Z G NZ HZ N. destruct HZ as [->| ->]; cbn.
    - split; [split; auto|reflexivity].
    - split; [|eauto]. destruct Z as [|z Z]; [easy|]. cbn. pose proof (N z (or_introl eq_refl)). destruct (ndata z); easy. }
  assert (L1 : forall (Z : list (nd fl)), Z <> [] -> 1 <= zlen Z) by (intros [|z Z] N; [easy|rewrite zlen_cons; pose proof (zlen_nonneg Z); lia]).
  destruct (HP s X F (proj1 HX) HF HNE) as [P1 P2]. destruct (HP s' X' F' (proj1 HX') HF' NE') as [P1' P2'].
  assert (Hn : forall v, pixel F v -> isnan v = false) by (intros v Hv; apply (passed_pixel s X F v HF) in Hv as (x & I & J); eauto).
  destruct (cubical_fit_spec dims None inf F (zlen X) Hd P2 (L1 X (proj1 HX)) P1 Hn) as (c & Ec & Pc & Sc & Ic & _ & Nc).
  destruct (cubical_fit_spec dims None inf F' (zlen X') Hd P2' (L1 X' (proj1 HX')) P1') as (c' & Ec' & _ & _ & Ic' & _ & Nc'); [intros v Hv; now apply Hn, P|].
  exists c, c'. split; auto. split; auto. intros Y Y' HY HY' MY.
  pose proof (cubical_dims _ _ _ _ _ Ec _ _ _ Ec') as ED.
  assert (EI : f_inf (c_fit c') = f_inf (c_fit c)).
  { destruct inf as [v|]; [congruence|]. destruct Ic as [A B], Ic' as [A' B']. apply fle_antisym; [apply B; now apply P|apply B'; now apply P]. }
  assert (D1 : f_dims (c_fit c) <> []) by (intro E; rewrite E in Pc; symmetry in Pc; now apply Permutation_nil in Pc).
  assert (D2 : NoDup (f_dims (c_fit c))) by (eapply Permutation_NoDup; eassumption).
  assert (D3 : forall dim, In dim (f_dims (c_fit c)) -> 0 <= dim) by (intros dim I; apply H0; eapply Permutation_in; [symmetry; exact Pc|auto]).
  unfold cubical_transform.
  destruct (transform_ok junk (fun x => Tagged (gudhi (cubical_arguments c x))) (c_fit c) reduced Y (proj1 HY) D1 D2) as (R & ER & _); [intros; split; [auto|exact I]|].
  destruct (transform_ok junk (fun x => Tagged (gudhi (cubical_arguments c' x))) (c_fit c') reduced Y' (proj1 HY')) as (R' & ER' & _); rewrite ?ED; auto; [intros; split; [auto|exact I]|].
  exists R, R'. split; auto. split; auto.
  apply (transform_same junk (fun x => Tagged (gudhi (cubical_arguments c x))) (fun x => Tagged (gudhi (cubical_arguments c' x))) (c_fit c) (c_fit c') reduced Y Y'); auto.
  - apply HY.
  - intros; split; [auto|exact I].
  - intros; split; [auto|exact I].
  - apply Forall2_In2 in MY. eapply ImgSymThms2.Forall2_mono; [|exact MY]. intros y y' (Iy & Iy' & My) dim _. apply same_classes_rows.
    unfold cubical_arguments. rewrite Nc, Nc'. pose proof My as (Sy & Sy' & _). rewrite Sy, Sy'.
    assert (CM : forall z : nd fl, wf z -> column_major_cells z (flatten_F z)).
    { intros z Wz. destruct (flatten_F_ok z Wz) as [A B]. split; auto. intros idx Ii. destruct (at_Some z idx Wz Ii) as [v Hv]. exists v. split; auto. now rewrite B, Hv. }
    apply (HG y y'); auto; try apply CM; solve [apply HY; auto|apply HY'; auto].
Qed.
Print Assumptions cubical_diagrams_symmetric.
