(** C94, examples: a stand-in for GUDHI that meets the assumptions, and what the
    pipeline gives with it for a picture and the reflected picture. *)
From Coq Require Import Reals Permutation Lra.
From Verif Require Import Np NpFacts Fl FlFacts Nd NdFacts DiagTypes HomModel HomSpec HomProofs RNp FeatModel FlowModel
  ImgSpec ImgModel ImgProofs3 ImgProofs4 ImgSymSpec ImgSymThms ImgSymThms2 ImgFlowModel ImgFlowSpec ImgFlowThms ImgFlowThms4.
Open Scope Z_scope.

(** One class that never dies, born at the smallest pixel, and one of dimension 1
    from the smallest to the largest pixel. *)
Definition finite_cells (cells : list (option fl)) : list Qc :=
  flat_map (fun c => match c with Some (Fin q) => [q] | _ => [] end) cells.
Definition pick (better : Qc -> Qc -> bool) (v : Qc) (l : list Qc) : Qc := fold_left (fun m w => if better m w then m else w) l v.
Definition toy_gudhi (a : list Z * list (option fl) * option (list bool)) : list (Z * (fl * fl)) :=
  match finite_cells (snd (fst a)) with
  | [] => []
  | v :: l => let lo := pick Qcleb v l in let hi := pick (fun m w => Qcleb w m) v l in
              [(0, (Fin lo, PInf)); (1, (Fin lo, Fin hi))]
  end.

Lemma pick_ok better v l : (forall a b, better a b = true \/ better b a = true) -> (forall a b c, better a b = true -> better b c = true -> better a c = true) ->
  In (pick better v l) (v :: l) /\ forall w, In w (v :: l) -> better (pick better v l) w = true.
Proof.
  intros T R. unfold pick. revert v. induction l as [|w l IH]; intro v.
  - split; [now left|]. intros w [<-|[]]. cbn. destruct (T v v); auto.
  - cbn [fold_left]. destruct (IH (if better v w then v else w)) as [A B]. split.
    + destruct A as [A|A]; [|right; now right]. rewrite <- A. destruct (better v w); [now left|right; now left].
    + intros u [<-|[<-|I]]; [| |apply B; now right].
      * eapply R; [apply B; now left|]. destruct (better v w) eqn:E; [destruct (T v v); auto|]. destruct (T v w); congruence.
      * eapply R; [apply B; now left|]. destruct (better v w) eqn:E; auto. destruct (T w w); auto.
Qed.
Lemma leb_total a b : Qcleb a b = true \/ Qcleb b a = true.
Proof. destruct (Qcleb_spec a b); auto. destruct (Qcleb_spec b a); auto. exfalso. qlra. Qed.
Lemma leb_trans a b c : Qcleb a b = true -> Qcleb b c = true -> Qcleb a c = true.
Proof. destruct (Qcleb_spec a b), (Qcleb_spec b c), (Qcleb_spec a c); auto; try easy. exfalso. qlra. Qed.
Lemma in_finite_cells q cells : In q (finite_cells cells) <-> In (Some (Fin q)) cells.
Proof.
  unfold finite_cells. rewrite in_flat_map. split.
  - intros ([[| |r|]|] & I & J); try destruct J; try easy. now subst.
  - intro I. exists (Some (Fin q)). split; auto. now left.
Qed.
Lemma cells_pixels x cells v : wf x -> column_major_cells x cells -> In (Some v) cells <-> exists idx, nget x idx = Some v.
Proof.
  intros [W L] [E K]. split.
  - intro I. apply In_Znth in I as (k & B & Hk). destruct (unravel (rev (nshape x)) k) as (r & Ir & Er).
    { intros n J. apply W. now apply in_rev. } { rewrite size_rev. lia. }
    apply inside_rev in Ir. rewrite rev_involutive in Ir. destruct (K _ Ir) as (w & Hw & Hc).
    rewrite <- ravel_rev, rev_involutive, Er in Hc by assumption. exists (rev r). congruence.
  - intros [idx H]. pose proof (at_inside _ _ _ H) as I. destruct (K idx I) as (w & Hw & Hc). assert (w = v) as -> by congruence. eapply Znth_In; eauto.
Qed.

Lemma toy_blind s s' sigma : grid_symmetry s s' sigma -> blind_to_orientation toy_gudhi s s' sigma.
Proof.
  intros [B _] x x' cells cells' W W' M C C'. pose proof (moved_get s s' sigma x x' B M) as G. destruct M as (S & S' & _). destruct B as (_ & _ & _ & B2).
  assert (E : forall q, In q (finite_cells cells) <-> In q (finite_cells cells')).
  { intro q. rewrite !in_finite_cells, (cells_pixels x cells _ W C), (cells_pixels x' cells' _ W' C'). split; intros [idx H].
    - exists (sigma idx). rewrite G; auto. apply at_inside in H. congruence.
    - destruct (B2 idx) as (p & Ip & <-); [apply at_inside in H; congruence|]. exists p. now rewrite G in H. }
  assert (EE : toy_gudhi (s, cells, None) = toy_gudhi (s', cells', None)).
  { unfold toy_gudhi. cbn [fst snd]. destruct (finite_cells cells) as [|v l], (finite_cells cells') as [|v' l'].
    - reflexivity.
    - destruct (proj2 (E v') (or_introl eq_refl)).
    - destruct (proj1 (E v) (or_introl eq_refl)).
    - destruct (pick_ok Qcleb v l leb_total leb_trans) as [A1 A2]. destruct (pick_ok Qcleb v' l' leb_total leb_trans) as [A1' A2'].
      destruct (pick_ok (fun m w => Qcleb w m) v l (fun a b => leb_total b a) (fun a b c H H' => leb_trans c b a H' H)) as [D1 D2].
      destruct (pick_ok (fun m w => Qcleb w m) v' l' (fun a b => leb_total b a) (fun a b c H H' => leb_trans c b a H' H)) as [D1' D2'].
      assert (pick Qcleb v l = pick Qcleb v' l') as <-.
      { apply Qcle_antisym; apply Qcleb_le; [apply A2, E, A1'|apply A2', E, A1]. }
      assert (pick (fun m w => Qcleb w m) v l = pick (fun m w => Qcleb w m) v' l') as <-; [|reflexivity].
      apply Qcle_antisym; apply Qcleb_le; [apply D2', E, D1|apply D2, E, D1']. }
  rewrite EE. intro dim. destruct (classes dim (toy_gudhi (s', cells', None))) as [|e t]; [now left|]. right. exists e, t, t. auto.
Qed.
Lemma toy_values : values_are_cells toy_gudhi.
Proof.
  intros s cells dim b d I. unfold toy_gudhi in I. cbn [fst snd] in I. destruct (finite_cells cells) as [|v l] eqn:E; [destruct I|].
  assert (K : forall q, In q (v :: l) -> In (Some (Fin q)) cells) by (intros q J; apply in_finite_cells; now rewrite E).
  pose proof (proj1 (pick_ok Qcleb v l leb_total leb_trans)) as A.
  pose proof (proj1 (pick_ok (fun m w => Qcleb w m) v l (fun a b => leb_total b a) (fun a b c H H' => leb_trans c b a H' H))) as D.
  cbn in I. destruct I as [I|[I|[]]]; injection I as _ <- <-; auto.
Qed.

(** A picture with two activated pixels, and its reflection of the second axis. *)
Definition picture : nd Z := Nd [2; 3] [1; 0; 0; 0; 0; 1].
Definition reflected : nd Z := Nd [2; 3] [0; 0; 1; 1; 0; 0].
Example ex_moved : Forall2 (moved [2; 3] [2; 3] (flip 1 [2; 3])) [picture] [reflected].
Proof.
  constructor; [|constructor]. split; [reflexivity|]. split; [reflexivity|]. intros p I.
  destruct p as [|i [|j [|]]]; cbn in I; rewrite ?andb_true_r, ?andb_false_r in I; try discriminate.
  apply andb_prop in I as [I J]. assert (A : i = 0 \/ i = 1) by lia. assert (B : j = 0 \/ j = 1 \/ j = 2) by lia.
  destruct A as [->| ->], B as [->|[->| ->]]; eexists; split; reflexivity.
Qed.
Lemma ex_images (l : list Z) : length l = 6%nat -> ImgSpec.images [2; 3] [Nd [2; 3] l].
Proof.
  intro E. split; [discriminate|]. intros x [<-|[]]. split; [|reflexivity]. split; [intros n I; cbn in I; intuition; subst; lia|]. cbn. unfold zlen. rewrite E. reflexivity.
Qed.
Lemma ex_binary : binary picture.
Proof.
  intros idx v H. apply nget_In in H. cbn in H. intuition.
Qed.
Example ex_pipeline_hypotheses k e : exists T,
  image_pipeline (Pt f0 f0 f0) toy_gudhi k None [0; 1] None true e 2 [picture] [picture] = Ok T /\
  image_pipeline (Pt f0 f0 f0) toy_gudhi k None [0; 1] None true e 1 [reflected] [reflected] = Ok T.
Proof.
  apply (image_pipeline_symmetric _ _ _ _ _ _ _ _ [2; 3] [2; 3] (flip 1 [2; 3])); try (apply ex_images; reflexivity); try exact ex_moved;
    try (intros x [<-|[]]; exact ex_binary); try (cbn; lia); try easy.
  - apply reflection_is_symmetry.
  - apply toy_blind, reflection_is_symmetry.
  - exact toy_values.
  - repeat constructor; cbn; intuition lia.
Qed.
(** The number of points: none in dimension 0 (reduced homology), one in dimension 1. *)
Example ex_pipeline : match image_pipeline (Pt f0 f0 f0) toy_gudhi ErosionF None [0; 1] None true Count 1 [reflected] [reflected] with
  | Ok T => T = [[XFin (IZR 0); XFin (IZR 1)]] | Err _ => False end.
Proof. vm_compute. reflexivity. Qed.
