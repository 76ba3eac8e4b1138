(** C101: the picture of an image and the picture of its point cloud. *)
From Verif Require Import Np NpFacts Nd NdFacts Fl FlFacts ImgModel ImgSpec ImgProofs3 ImgThms
  VecSpec PlotTypes PlotModel PicModel PicSpec.
From Verif Require PlotSpec GraphProofs.
Open Scope Z_scope.

(** *** Helpers *)
Lemma image_rows_entry y n m r c : wf y -> nshape y = [n; m] ->
  entry (image_rows y) r c = option_map qz (nget y [r; c]).
Proof.
  intros [W1 W2] E. unfold image_rows. rewrite E.
  assert (0 <= n /\ 0 <= m) as [Hn Hm] by (split; apply W1; rewrite E; cbn; auto).
  destruct (inside [n; m] [r; c]) eqn:I.
  - pose proof I as I'. apply inside_cons in I'. destruct I' as [B1 I']. apply inside_cons in I'. destruct I' as [B2 _].
    unfold entry. rewrite Znth_tabZ by assumption. rewrite Znth_tabZ by assumption.
    destruct (at_Some y [r; c]) as [z Hz]; [now split|now rewrite E|]. now rewrite Hz.
  - unfold nget. rewrite E, I. cbn [option_map]. unfold entry.
    destruct (Znth (tabZ n _) r) as [row|] eqn:R; [|reflexivity].
    pose proof (Znth_Some_lt _ _ _ R) as Br. rewrite zlen_tabZ in Br by assumption. rewrite Znth_tabZ in R by assumption. injection R as <-.
    destruct (Znth (tabZ m _) c) as [z|] eqn:C; [|reflexivity].
    pose proof (Znth_Some_lt _ _ _ C) as Bc. rewrite zlen_tabZ in Bc by assumption.
    exfalso. assert (T : inside [n; m] [r; c] = true) by (repeat (apply inside_cons; split; [assumption|]); reflexivity). congruence.
Qed.

Lemma planar_cloud (cloud : list (list Z)) : (forall pt, In pt cloud -> exists a b, pt = [a; b]) ->
  exists xs ys col, plot_point_cloud 2 (map (map qz) cloud) None = Ok (CloudPlot [xs; ys] col) /\
    forall i x y, Znth xs i = Some x /\ Znth ys i = Some y <-> exists a b, Znth cloud i = Some [a; b] /\ x = qz a /\ y = qz b.
Proof.
  intros H. unfold plot_point_cloud. cbn [bind]. change (Z.min 3 2) with 2. change (2 <? 2) with false. change (2 =? 2) with true. cbv iota.
  assert (C : exists xs ys, column (map (map qz) cloud) 0 = Ok xs /\ column (map (map qz) cloud) 1 = Ok ys /\
    forall i x y, Znth xs i = Some x /\ Znth ys i = Some y <-> exists a b, Znth cloud i = Some [a; b] /\ x = qz a /\ y = qz b).
  { induction cloud as [|pt cloud IH].
    - exists [], []. split; [reflexivity|]. split; [reflexivity|]. intros i x y. split.
      + intros [A _]. apply Znth_In in A. destruct A.
      + intros [a [b [A _]]]. apply Znth_In in A. destruct A.
    - destruct IH as [xs [ys [E1 [E2 E3]]]]; [intros; apply H; now right|]. destruct (H pt (or_introl eq_refl)) as [a [b ->]].
      exists (qz a :: xs), (qz b :: ys). unfold column in *. cbn [map mapM].
      change (py_get [qz a; qz b] 0) with (Ok (A := Qc) (qz a)). change (py_get [qz a; qz b] 1) with (Ok (A := Qc) (qz b)). cbn [bind].
      rewrite E1, E2. split; [reflexivity|]. split; [reflexivity|]. intros i x y. destruct (Z.eq_dec i 0) as [->|Hi].
      + rewrite !Znth_0. split.
        * intros [[= <-] [= <-]]. eauto.
        * intros [a' [b' [[= <- <-] [-> ->]]]]. auto.
      + destruct (Z_lt_dec i 0) as [L|L].
        * split; [intros [A _]|intros [a' [b' [A _]]]]; apply Znth_Some_lt in A; lia.
        * rewrite !Znth_cons by lia. apply E3. }
  destruct C as [xs [ys [E1 [E2 E3]]]]. rewrite E1, E2. cbn [bind]. exists xs, ys. eexists. split; [reflexivity|exact E3].
Qed.

Lemma py_get_item {A} (l : list A) i x : PlotSpec.item l i x -> py_get l i = Ok x.
Proof.
  intros [H|[H0 H]]; unfold py_get.
  - pose proof (Znth_Some_lt _ _ _ H). destruct (Z.ltb_spec i 0); [lia|]. now rewrite H.
  - destruct (Z.ltb_spec i 0); [|lia]. now rewrite Z.add_comm, H.
Qed.
Lemma item_Forall2 {A B} (P : A -> B -> Prop) l l' i x : Forall2 P l l' -> PlotSpec.item l i x ->
  exists y, PlotSpec.item l' i y /\ P x y.
Proof.
  intros F. assert (G : forall j, Znth l j = Some x -> exists y, Znth l' j = Some y /\ P x y).
  { induction F as [|a b l l' Hab F IH]; intros j Hj; [apply Znth_In in Hj; destruct Hj|].
    destruct (Z.eq_dec j 0) as [->|Hn]; [rewrite Znth_0 in *; injection Hj as <-; eauto|].
    pose proof (Znth_Some_lt _ _ _ Hj). rewrite Znth_cons in Hj by lia. rewrite Znth_cons by lia. auto. }
  assert (L : zlen l = zlen l') by (clear -F; induction F; rewrite ?zlen_cons; [reflexivity|lia]).
  intros [H|[H0 H]]; destruct (G _ H) as [y [Hy HP]]; exists y; (split; [|assumption]).
  - now left.
  - right. now rewrite <- L.
Qed.

(** *** The picture of an image: with the default origin the first row is on top, with origin
    'lower' it is at the bottom. *)
Theorem image_plot_shows Y sample n m y origin :
  images [n; m] Y -> PlotSpec.item Y sample y ->
  exists h, image_plot Y sample origin = Ok h /\
    forall u v w, seen h n u v w <->
      exists k, w = qz k /\ nget y [match origin with Upper => n - 1 - v | Lower => v end; u] = Some k.
Proof.
  intros HY Hy. unfold image_plot. rewrite (py_get_item _ _ _ Hy). cbn [bind]. eexists. split; [reflexivity|].
  assert (Iy : In y Y) by (destruct Hy as [H|[_ H]]; eapply Znth_In; eassumption).
  destruct (proj2 HY y Iy) as [W E]. intros u v w. unfold seen. cbn [plot_heatmap h_x h_y h_z h_reversed].
  rewrite (image_rows_entry y n m) by assumption.
  destruct origin; (split; [intros [_ [_ H]]|intros [k [-> H]]; rewrite H; auto]);
    (destruct (nget y _) as [k|] eqn:G; [|discriminate]; injection H as <-; eauto).
Qed.

(** *** The point cloud of an image looks like the image: the markers are at the activated pixels
    of the picture with the default origin, one for each. *)
Theorem image_and_cloud_pictures_agree n_jobs s n m X Y sample y :
  1 <= n_jobs -> images s X -> 1 <= zlen s <= 3 -> images [n; m] Y -> PlotSpec.item Y sample y ->
  exists R h p, image_to_point_cloud n_jobs X Y = Ok R /\
    image_plot Y sample Upper = Ok h /\ image_cloud_plot R sample = Ok p /\
    (forall i a b, marker p i a b -> exists u v w, a = qz u /\ b = qz v /\ seen h n u v w /\ w <> 0%Qc) /\
    (forall u v w, seen h n u v w -> w <> 0%Qc -> exists i, marker p i (qz u) (qz v) /\
       forall j, marker p j (qz u) (qz v) -> j = i).
Proof.
  intros HJ HX HL HY Hy.
  destruct (image_to_point_cloud_spec n_jobs s n m [] X Y HJ HX HL HY) as [R [ER F]].
  destruct (image_plot_shows Y sample n m y Upper HY Hy) as [h [Eh Hh]].
  destruct (item_Forall2 _ _ _ _ _ F Hy) as [cloud [Hc [ND HP]]].
  assert (Iy : In y Y) by (destruct Hy as [H|[_ H]]; eapply Znth_In; eassumption).
  destruct (proj2 HY y Iy) as [W E].
  assert (SH : forall idx k, nget y idx = Some k -> exists r c, idx = [r; c]).
  { intros idx k H. unfold nget in H. rewrite E in H. destruct (inside [n; m] idx) eqn:I; [|discriminate].
    apply inside_length in I. destruct idx as [|r [|c [|? ?]]]; try discriminate. eauto. }
  destruct (planar_cloud cloud) as [xs [ys [col [Ep Hp]]]].
  { intros pt Hpt. apply HP in Hpt. destruct Hpt as [idx [k [G [_ ->]]]]. destruct (SH idx k G) as [r [c ->]]. cbn. eauto. }
  exists R, h, (CloudPlot [xs; ys] col). split; [assumption|]. split; [assumption|]. split; [|split].
  - unfold image_cloud_plot. rewrite (py_get_item _ _ _ Hc). exact Ep.
  - intros i a b [xs' [ys' [[= <- <-] HM]]]. apply Hp in HM. destruct HM as [u [v [Hi [-> ->]]]].
    apply Znth_In in Hi. apply HP in Hi. destruct Hi as [idx [k [G [Hk Hpt]]]]. destruct (SH idx k G) as [r [c ->]].
    cbn [point_of_pixel] in Hpt. injection Hpt as -> ->. exists c, (n - 1 - r), (qz k). split; [reflexivity|]. split; [reflexivity|]. split.
    + apply Hh. exists k. split; [reflexivity|]. now replace (n - 1 - (n - 1 - r)) with r by lia.
    + intros Z. rewrite <- qz_0 in Z. apply qz_inj in Z. easy.
  - intros u v w Hs Hw. apply Hh in Hs. destruct Hs as [k [-> G]].
    assert (I : In [u; v] cloud).
    { apply HP. exists [n - 1 - v; u], k. split; [assumption|]. split; [intros ->; now apply Hw|]. cbn [point_of_pixel].
      now replace (n - 1 - (n - 1 - v)) with v by lia. }
    apply In_Znth in I. destruct I as [i [_ Hi]]. exists i. split.
    + exists xs, ys. split; [reflexivity|]. apply Hp. eauto.
    + intros j [xs' [ys' [[= <- <-] HM]]]. apply Hp in HM. destruct HM as [a [b [Hj [Ea Eb]]]]. apply qz_inj in Ea, Eb. subst.
      eapply GraphProofs.NoDup_Znth; eassumption.
Qed.

(** With origin 'lower' the image is upside down compared with its point cloud. *)
Theorem lower_origin_mirrors Y sample n m y :
  images [n; m] Y -> PlotSpec.item Y sample y ->
  exists h h', image_plot Y sample Upper = Ok h /\ image_plot Y sample Lower = Ok h' /\
    forall u v w, seen h' n u v w <-> seen h n u (n - 1 - v) w.
Proof.
  intros HY Hy. destruct (image_plot_shows Y sample n m y Upper HY Hy) as [h [Eh Hh]].
  destruct (image_plot_shows Y sample n m y Lower HY Hy) as [h' [Eh' Hh']].
  exists h, h'. split; [assumption|]. split; [assumption|]. intros u v w. rewrite Hh, Hh'. cbv iota.
  now replace (n - 1 - (n - 1 - v)) with v by lia.
Qed.

(** *** A concrete case: an image of 3 x 4 pixels, two of them activated. *)
Example picture_example :
  images [3; 4] [ex_img] /\ PlotSpec.item [ex_img] (-1) ex_img /\
  image_to_point_cloud 1 [ex_img] [ex_img] = Ok [[[1; 1]; [3; 0]]].
Proof. split; [apply ex_images|]. split; [right; split; [lia|reflexivity]|reflexivity]. Qed.

Print Assumptions image_plot_shows.
Print Assumptions image_and_cloud_pictures_agree.
Print Assumptions lower_origin_mirrors.
