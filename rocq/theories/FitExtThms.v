(** C96: what fit keeps of the training diagrams. *)
From Coq Require Import Reals Permutation.
From Verif Require Import PipeProofs Np NpFacts Fl FlFacts DiagTypes DiagModel DiagSpec VecModel VecSpec VecProofs VecProofs4 VecThms RNp MetricModel MetricSpec
  FeatModel FeatSpec FeatProofs FlowThms ImgFlowThms FitExtSpec.
Open Scope Z_scope.

Lemma assoc_ext {K V} (b b' : list (K * V)) : map fst b = map fst b' -> (forall q e e', In (q, e) b -> In (q, e') b' -> e = e') -> b = b'.
Proof.
  revert b'. induction b as [|[q e] b IH]; intros [|[q' e'] b'] E H; cbn in E; try easy. injection E as <- E. f_equal.
  - f_equal. apply (H q); now left.
  - apply IH; auto. intros q' a a' I I'. apply (H q'); now right.
Qed.
Lemma ext_grid (P P' : fl -> Qc -> Prop) dims n q s t s' t' : 1 <= n -> In q dims ->
  (forall q, In q dims -> same_extent (P q) (P' q)) -> (forall q, In q dims -> exists m, is_greatest m (P q)) ->
  grid_of P dims n q s t -> grid_of P' dims n q s' t' -> (s, t) = (s', t').
Proof.
  intros Hn I E M (lo & hi & (L & m & G & H) & R) (lo' & hi' & (L' & m' & G' & H') & R').
  assert (UL : forall (Q : Qc -> Prop) a b, is_least a Q -> is_least b Q -> a = b) by (intros Q a b [A B] [C D]; apply Qcle_antisym; auto).
  assert (UG : forall (Q : Qc -> Prop) a b, is_greatest a Q -> is_greatest b Q -> a = b) by (intros Q a b [A B] [C D]; apply Qcle_antisym; auto).
  apply (E q I) in L', G'. assert (lo' = lo) as -> by eauto. assert (m' = m) as -> by eauto.
  assert (hi' = hi) as ->; [|now apply (grid_same lo hi n)].
  destruct H as [[A ->]|[A B]], H' as [[A' ->]|[A' B']]; try easy.
  destruct B as [(q1 & I1 & V1) B], B' as [(q2 & I2 & V2) B'].
  assert (G1 : is_greatest hi (P q1)) by (split; auto; intros w W; apply B; eauto).
  assert (G2 : is_greatest hi' (P' q2)) by (split; auto; intros w W; apply B'; eauto).
  apply Qcle_antisym.
  - apply (E q2 I2) in G2. apply B. exists q2. split; auto. apply G2.
  - apply (E q1 I1) in G1. apply B'. exists q1. split; auto. apply G1.
Qed.
Lemma bin_axes_diagonal n dims X b : bin_axes false n dims X = Ok b -> forall q a0 a1, In (q, (a0, a1)) b -> a1 = a0.
Proof.
  intro H. unfold bin_axes in H. apply bind_iff in H as (ranges & ER & H). apply bind_iff in H as (g0 & E0 & H). apply bind_iff in H as (g1 & E1 & H). injection H as <-.
  assert (D : forall r, In r ranges -> fst (fst r) = snd (fst r) /\ fst (snd r) = snd (snd r)).
  { clear - ER. revert ranges ER. induction dims as [|d dims IH]; intros ranges ER; cbn in ER; [injection ER as <-; easy|].
    apply bind_iff in ER as (r & E & ER). apply bind_iff in ER as (rs & E' & ER). injection ER as <-. intros r' [<-|I]; [|now apply (IH rs)].
    unfold bin_range in E. repeat (apply bind_iff in E as (? & _ & E)). injection E as <-. auto. }
  assert (g1 = g0) as ->. { rewrite (map_ext_in (fun r => fst (snd r)) (fun r => snd (snd r))) in E0 by (intros r I; now apply D). congruence. }
  intros q a0 a1 I. apply in_map_iff in I as ([dim [lo hi]] & E & I). apply in_combine_r in I. destruct (D _ I) as [A B]. cbn [fst snd] in *. injection E as _ <- <-. now rewrite A, B.
Qed.

Section Fit.
Context (X X' : list diagram) (n : Z).
Hypothesis HT : trainable X.
Hypothesis HT' : trainable X'.
Hypothesis HL : same_labels X X'.
Hypothesis Hn : 1 <= n.

Lemma dims_same : first_dims X = first_dims X'.
Proof.
  destruct (first_dims_ok X HT) as (d & E & _ & D1 & D2). destruct (first_dims_ok X' HT') as (d' & E' & _ & D1' & D2').
  rewrite E, E'. f_equal. apply increasing_unique; auto. intro q. rewrite D2, D2'. apply HL.
Qed.
Lemma axes_same pi : (pi = false -> forall q, In q (map pq (hd [] X)) -> same_extent (coordinate q X) (coordinate q X')) ->
  (pi = true -> forall q, In q (map pq (hd [] X)) -> same_extent (birth_value q X) (birth_value q X') /\ same_extent (lifetime_value q X) (lifetime_value q X')) ->
  exists dims b, first_dims X = Ok dims /\ first_dims X' = Ok dims /\ bin_axes pi n dims X = Ok b /\ bin_axes pi n dims X' = Ok b.
Proof.
  intros HF HTr. pose proof dims_same as ED. destruct (fit_ok pi n X Hn HT) as (d & b & E & _ & [_ DQ] & _ & B & K & G). destruct (fit_ok pi n X' Hn HT') as (d' & b' & E' & _ & _ & _ & B' & K' & G').
  assert (d' = d) as -> by congruence. exists d, b. split; [assumption|]. split; [congruence|]. split; [assumption|]. rewrite B'. f_equal. apply assoc_ext; [congruence|].
  assert (GE : forall q, In q d -> exists a, In (q, a) b) by (intros q I; rewrite <- K in I; apply in_map_iff in I as ([q' a] & <- & I); eauto).
  intros q [a0 a1] [c0 c1] I' I. assert (Iq : In q d) by (rewrite <- K; apply in_map_iff; exists (q, (c0, c1)); auto).
  destruct (G q c0 c1 I) as [GT GF]. destruct (G' q a0 a1 I') as [GT' GF']. destruct pi.
  - destruct (GT eq_refl) as [A1 A2]. destruct (GT' eq_refl) as [A1' A2'].
    assert (M : forall q, In q d -> (exists m, is_greatest m (birth_value q X)) /\ (exists m, is_greatest m (lifetime_value q X))).
    { intros q' I1. destruct (GE q' I1) as ([x0 x1] & I2). destruct (proj1 (G q' x0 x1 I2) eq_refl) as [(? & ? & (_ & m & M & _) & _) (? & ? & (_ & m' & M' & _) & _)]. eauto. }
    pose proof (ext_grid _ _ d n q _ _ _ _ Hn Iq (fun q I => proj1 (HTr eq_refl q (proj1 (DQ q) I))) (fun q I => proj1 (M q I)) A1 A1') as Z1.
    pose proof (ext_grid _ _ d n q _ _ _ _ Hn Iq (fun q I => proj2 (HTr eq_refl q (proj1 (DQ q) I))) (fun q I => proj2 (M q I)) A2 A2') as Z2.
    destruct a0, a1, c0, c1. cbn [fst snd] in *. congruence.
  - assert (M : forall q, In q d -> exists m, is_greatest m (coordinate q X)).
    { intros q' I1. destruct (GE q' I1) as ([x0 x1] & I2). destruct (proj2 (G q' x0 x1 I2) eq_refl) as (? & ? & (_ & m & M & _) & _). eauto. }
    pose proof (ext_grid _ _ d n q _ _ _ _ Hn Iq (fun q I => HF eq_refl q (proj1 (DQ q) I)) M (GF eq_refl) (GF' eq_refl)) as Z1.
    pose proof (bin_axes_diagonal n d X b B q c0 c1 I) as ->. pose proof (bin_axes_diagonal n d X' b' B' q a0 a1 I') as ->.
    destruct a0, c0. cbn [fst snd] in *. congruence.
Qed.
End Fit.

(** Entropy and the numbers of points: fit keeps the homology dimensions only. *)
Theorem fit_keeps_the_dimensions :
  forall X X', trainable X -> trainable X' -> same_labels X X' ->
  forall n_jobs Y,
    (forall normalize fill, persistence_entropy normalize fill n_jobs X Y = persistence_entropy normalize fill n_jobs X' Y) /\
    number_of_points n_jobs X Y = number_of_points n_jobs X' Y.
Proof.
  intros X X' HT HT' HL n_jobs Y. pose proof (dims_same X X' HT HT' HL) as E. unfold persistence_entropy, number_of_points. rewrite E. auto.
Qed.
(** Curves, landscapes, silhouettes, heat kernels and amplitudes: fit keeps the dimensions and, for
    each of them, the least and the greatest birth or death. *)
Theorem fit_keeps_the_extent :
  forall X X', trainable X -> trainable X' -> same_labels X X' ->
  (forall q, In q (map pq (hd [] X)) -> same_extent (coordinate q X) (coordinate q X')) ->
  forall n_bins n_jobs Y, 1 <= n_bins ->
    betti_curve n_bins n_jobs X Y = betti_curve n_bins n_jobs X' Y /\
    (forall partition n_layers, persistence_landscape partition n_layers n_bins n_jobs X Y = persistence_landscape partition n_layers n_bins n_jobs X' Y) /\
    (forall power, silhouette_transform power n_bins n_jobs X Y = silhouette_transform power n_bins n_jobs X' Y) /\
    (forall gauss sigma, heat_kernel gauss sigma n_bins n_jobs X Y = heat_kernel gauss sigma n_bins n_jobs X' Y) /\
    (forall E m, match m with PersImage _ _ _ => False | _ => True end ->
       amplitude E m n_bins n_jobs X Y = amplitude E m n_bins n_jobs X' Y /\
       forall order, amplitude_order E m order n_bins n_jobs X Y = amplitude_order E m order n_bins n_jobs X' Y).
Proof.
  intros X X' HT HT' HL HE n n_jobs Y Hn. destruct (axes_same X X' n HT HT' HL Hn false (fun _ => HE) ltac:(easy)) as (d & b & E & E' & B & B').
  unfold betti_curve, persistence_landscape, silhouette_transform, heat_kernel, amplitude_order, amplitude, fit_metric, bin. rewrite E, E'. cbn [bind]. rewrite B, B'.
  split; [reflexivity|]. split; [reflexivity|]. split; [reflexivity|]. split; [reflexivity|].
  intros Ex m Hm. assert (uses_lifetimes m = false) as -> by (destruct m; easy). rewrite B, B'. split; reflexivity.
Qed.
(** Persistence images and their amplitude: the least and the greatest birth and lifetime. *)
Theorem fit_keeps_births_and_lifetimes :
  forall X X', trainable X -> trainable X' -> same_labels X X' ->
  (forall q, In q (map pq (hd [] X)) -> same_extent (birth_value q X) (birth_value q X') /\ same_extent (lifetime_value q X) (lifetime_value q X')) ->
  forall n_bins n_jobs Y, 1 <= n_bins ->
    (forall gauss weights sigma,
       persistence_image_transform gauss weights sigma n_bins n_jobs X Y = persistence_image_transform gauss weights sigma n_bins n_jobs X' Y) /\
    (forall E p sigma weight_function, let m := PersImage p sigma weight_function in
       amplitude E m n_bins n_jobs X Y = amplitude E m n_bins n_jobs X' Y /\
       forall order, amplitude_order E m order n_bins n_jobs X Y = amplitude_order E m order n_bins n_jobs X' Y).
Proof.
  intros X X' HT HT' HL HE n n_jobs Y Hn. destruct (axes_same X X' n HT HT' HL Hn true ltac:(easy) (fun _ => HE)) as (d & b & E & E' & B & B').
  unfold persistence_image_transform, amplitude_order, amplitude, fit_metric. rewrite E, E'. cbn [bind uses_lifetimes]. rewrite B, B'. split; [reflexivity|split; reflexivity].
Qed.

(** So the order of the training diagrams, and repetitions of them, do not matter. *)
Theorem training_order_does_not_matter :
  forall X X', trainable X -> trainable X' -> uniform X -> (forall x, In x X <-> In x X') ->
  forall n_bins n_jobs Y, 1 <= n_bins ->
    (forall normalize fill, persistence_entropy normalize fill n_jobs X Y = persistence_entropy normalize fill n_jobs X' Y) /\
    number_of_points n_jobs X Y = number_of_points n_jobs X' Y /\
    betti_curve n_bins n_jobs X Y = betti_curve n_bins n_jobs X' Y /\
    (forall partition n_layers, persistence_landscape partition n_layers n_bins n_jobs X Y = persistence_landscape partition n_layers n_bins n_jobs X' Y) /\
    (forall power, silhouette_transform power n_bins n_jobs X Y = silhouette_transform power n_bins n_jobs X' Y) /\
    (forall gauss sigma, heat_kernel gauss sigma n_bins n_jobs X Y = heat_kernel gauss sigma n_bins n_jobs X' Y) /\
    (forall gauss weights sigma, persistence_image_transform gauss weights sigma n_bins n_jobs X Y = persistence_image_transform gauss weights sigma n_bins n_jobs X' Y) /\
    (forall E m, amplitude E m n_bins n_jobs X Y = amplitude E m n_bins n_jobs X' Y /\
       forall order, amplitude_order E m order n_bins n_jobs X Y = amplitude_order E m order n_bins n_jobs X' Y).
Proof.
  intros X X' HT HT' HU HI n n_jobs Y Hn.
  assert (HL : same_labels X X').
  { intro q. apply HU.
    - destruct HT as [N _]. destruct X; [easy|now left].
    - apply HI. destruct HT' as [N _]. destruct X'; [easy|now left]. }
  assert (S : forall P P' : Qc -> Prop, (forall v, P v <-> P' v) -> same_extent P P').
  { intros P P' E v. unfold is_least, is_greatest. rewrite (E v). split; (split; intros [A B]; split; auto; intros w W; apply B; now apply E). }
  assert (C : forall q, same_extent (coordinate q X) (coordinate q X')).
  { intro q. apply S. intro v. unfold coordinate. split; intros (x & p & I & K); exists x, p; (split; [now apply HI|auto]). }
  assert (B : forall q, same_extent (birth_value q X) (birth_value q X') /\ same_extent (lifetime_value q X) (lifetime_value q X')).
  { intro q. split; apply S; intro v; unfold birth_value, lifetime_value.
    - split; intros (x & p & I & K); exists x, p; (split; [now apply HI|auto]).
    - split; intros (x & p & c & d & I & K); exists x, p, c, d; (split; [now apply HI|auto]). }
  destruct (fit_keeps_the_dimensions X X' HT HT' HL n_jobs Y) as [A1 A2].
  destruct (fit_keeps_the_extent X X' HT HT' HL (fun q _ => C q) n n_jobs Y Hn) as (A3 & A4 & A5 & A6 & A7).
  destruct (fit_keeps_births_and_lifetimes X X' HT HT' HL (fun q _ => B q) n n_jobs Y Hn) as [A8 A9].
  split; auto. split; auto. split; auto. split; auto. split; auto. split; auto. split; [auto|].
  intros E m. destruct m; try (now apply A7). apply A9.
Qed.

(** Two training collections with different diagrams and the same extent. *)
Definition ex_train : list diagram := of_raw [[(0, 4, 0); (1, 3, 1); (2, 3, 0)]; [(1, 3, 0); (2, 2, 1); (1, 1, 0)]].
Definition ex_train' : list diagram := of_raw [[(2, 4, 0); (1, 2, 1); (0, 1, 0)]; [(1, 3, 0); (1, 3, 1); (2, 4, 0)]].
Lemma extent_of (P P' : Qc -> Prop) lo hi : is_least lo P -> is_least lo P' -> is_greatest hi P -> is_greatest hi P' -> same_extent P P'.
Proof.
  intros [A B] [A' B'] [C D] [C' D'] v. split; split; intros [U V].
  - assert (v = lo) as -> by (apply Qcle_antisym; auto). now split.
  - assert (v = lo) as -> by (apply Qcle_antisym; auto). now split.
  - assert (v = hi) as -> by (apply Qcle_antisym; auto). now split.
  - assert (v = hi) as -> by (apply Qcle_antisym; auto). now split.
Qed.
Lemma ex_labels q : In q (map pq (hd [] ex_train)) -> q = fz 0 \/ q = fz 1.
Proof. cbn. intros [<-|[<-|[<-|[]]]]; auto. Qed.
Example ex_same_extent : trainable ex_train /\ trainable ex_train' /\ same_labels ex_train ex_train' /\ uniform ex_train /\
  (forall q, In q (map pq (hd [] ex_train)) -> same_extent (coordinate q ex_train) (coordinate q ex_train')) /\
  exists T, betti_curve 3 1 ex_train ex_train = Ok T /\ betti_curve 3 1 ex_train' ex_train = Ok T.
Proof.
  split; [|split; [|split; [|split; [|split]]]].
  - split; [discriminate|]. split.
    + apply ex_finite. intros x t [<-|[<-|[]]] H; repeat (destruct H as [<-|H]; [cbn; lia|]); destruct H.
    + intros q Hq. destruct (ex_labels q Hq) as [->| ->]; (split; [reflexivity|]); [exists 2|exists 1]; intros x [<-|[<-|[]]]; vm_compute; reflexivity.
  - split; [discriminate|]. split.
    + apply ex_finite. intros x t [<-|[<-|[]]] H; repeat (destruct H as [<-|H]; [cbn; lia|]); destruct H.
    + intros q Hq. destruct (ex_labels q Hq) as [->| ->]; (split; [reflexivity|]); [exists 2|exists 1]; intros x [<-|[<-|[]]]; vm_compute; reflexivity.
  - intro q; reflexivity.
  - intros x x' q [<-|[<-|[]]] [<-|[<-|[]]]; reflexivity.
  - assert (R0 : map (rows_of (fz 0)) ex_train = [[Pt (fz 0) (fz 4) (fz 0); Pt (fz 2) (fz 3) (fz 0)]; [Pt (fz 1) (fz 3) (fz 0); Pt (fz 1) (fz 1) (fz 0)]]) by (vm_compute; reflexivity).
    assert (R0' : map (rows_of (fz 0)) ex_train' = [[Pt (fz 2) (fz 4) (fz 0); Pt (fz 0) (fz 1) (fz 0)]; [Pt (fz 1) (fz 3) (fz 0); Pt (fz 2) (fz 4) (fz 0)]]) by (vm_compute; reflexivity).
    assert (R1 : map (rows_of (fz 1)) ex_train = [[Pt (fz 1) (fz 3) (fz 1)]; [Pt (fz 2) (fz 2) (fz 1)]]) by (vm_compute; reflexivity).
    assert (R1' : map (rows_of (fz 1)) ex_train' = [[Pt (fz 1) (fz 2) (fz 1)]; [Pt (fz 1) (fz 3) (fz 1)]]) by (vm_compute; reflexivity).
    assert (C : forall q X v, coordinate q X v <-> exists l p, In l (map (rows_of q) X) /\ In p l /\ (pb p = Fin v \/ pd p = Fin v)).
    { intros q X v. split.
      - intros (x & p & I & J & K). exists (rows_of q x), p. split; auto. now apply in_map.
      - intros (l & p & I & J & K). apply in_map_iff in I as (x & <- & I). exists x, p. auto. }
    intros q Hq. destruct (ex_labels q Hq) as [->| ->].
    + apply (extent_of _ _ (qz 0) (qz 4)).
      * split; [apply C; rewrite R0; exists ([Pt (fz 0) (fz 4) (fz 0); Pt (fz 2) (fz 3) (fz 0)]), (Pt (fz 0) (fz 4) (fz 0)); split; [cbn; tauto|split; [cbn; tauto|left; reflexivity]]|]. intros w W; apply C in W; rewrite ?R0, ?R0', ?R1, ?R1' in W; destruct W as (l & p & I & J & K); cbn in I; repeat (destruct I as [<-|I]; [repeat (destruct J as [<-|J]; [destruct K as [K|K]; injection K as <-; apply qz_le; lia|]); destruct J|]); destruct I.
      * split; [apply C; rewrite R0'; exists ([Pt (fz 2) (fz 4) (fz 0); Pt (fz 0) (fz 1) (fz 0)]), (Pt (fz 0) (fz 1) (fz 0)); split; [cbn; tauto|split; [cbn; tauto|left; reflexivity]]|]. intros w W; apply C in W; rewrite ?R0, ?R0', ?R1, ?R1' in W; destruct W as (l & p & I & J & K); cbn in I; repeat (destruct I as [<-|I]; [repeat (destruct J as [<-|J]; [destruct K as [K|K]; injection K as <-; apply qz_le; lia|]); destruct J|]); destruct I.
      * split; [apply C; rewrite R0; exists ([Pt (fz 0) (fz 4) (fz 0); Pt (fz 2) (fz 3) (fz 0)]), (Pt (fz 0) (fz 4) (fz 0)); split; [cbn; tauto|split; [cbn; tauto|right; reflexivity]]|]. intros w W; apply C in W; rewrite ?R0, ?R0', ?R1, ?R1' in W; destruct W as (l & p & I & J & K); cbn in I; repeat (destruct I as [<-|I]; [repeat (destruct J as [<-|J]; [destruct K as [K|K]; injection K as <-; apply qz_le; lia|]); destruct J|]); destruct I.
      * split; [apply C; rewrite R0'; exists ([Pt (fz 2) (fz 4) (fz 0); Pt (fz 0) (fz 1) (fz 0)]), (Pt (fz 2) (fz 4) (fz 0)); split; [cbn; tauto|split; [cbn; tauto|right; reflexivity]]|]. intros w W; apply C in W; rewrite ?R0, ?R0', ?R1, ?R1' in W; destruct W as (l & p & I & J & K); cbn in I; repeat (destruct I as [<-|I]; [repeat (destruct J as [<-|J]; [destruct K as [K|K]; injection K as <-; apply qz_le; lia|]); destruct J|]); destruct I.
    + apply (extent_of _ _ (qz 1) (qz 3)).
      * split; [apply C; rewrite R1; exists ([Pt (fz 1) (fz 3) (fz 1)]), (Pt (fz 1) (fz 3) (fz 1)); split; [cbn; tauto|split; [cbn; tauto|left; reflexivity]]|]. intros w W; apply C in W; rewrite ?R0, ?R0', ?R1, ?R1' in W; destruct W as (l & p & I & J & K); cbn in I; repeat (destruct I as [<-|I]; [repeat (destruct J as [<-|J]; [destruct K as [K|K]; injection K as <-; apply qz_le; lia|]); destruct J|]); destruct I.
      * split; [apply C; rewrite R1'; exists ([Pt (fz 1) (fz 2) (fz 1)]), (Pt (fz 1) (fz 2) (fz 1)); split; [cbn; tauto|split; [cbn; tauto|left; reflexivity]]|]. intros w W; apply C in W; rewrite ?R0, ?R0', ?R1, ?R1' in W; destruct W as (l & p & I & J & K); cbn in I; repeat (destruct I as [<-|I]; [repeat (destruct J as [<-|J]; [destruct K as [K|K]; injection K as <-; apply qz_le; lia|]); destruct J|]); destruct I.
      * split; [apply C; rewrite R1; exists ([Pt (fz 1) (fz 3) (fz 1)]), (Pt (fz 1) (fz 3) (fz 1)); split; [cbn; tauto|split; [cbn; tauto|right; reflexivity]]|]. intros w W; apply C in W; rewrite ?R0, ?R0', ?R1, ?R1' in W; destruct W as (l & p & I & J & K); cbn in I; repeat (destruct I as [<-|I]; [repeat (destruct J as [<-|J]; [destruct K as [K|K]; injection K as <-; apply qz_le; lia|]); destruct J|]); destruct I.
      * split; [apply C; rewrite R1'; exists ([Pt (fz 1) (fz 3) (fz 1)]), (Pt (fz 1) (fz 3) (fz 1)); split; [cbn; tauto|split; [cbn; tauto|right; reflexivity]]|]. intros w W; apply C in W; rewrite ?R0, ?R0', ?R1, ?R1' in W; destruct W as (l & p & I & J & K); cbn in I; repeat (destruct I as [<-|I]; [repeat (destruct J as [<-|J]; [destruct K as [K|K]; injection K as <-; apply qz_le; lia|]); destruct J|]); destruct I.
  - eexists. split; vm_compute; reflexivity.
Qed.

Print Assumptions fit_keeps_the_dimensions.
Print Assumptions fit_keeps_the_extent.
Print Assumptions fit_keeps_births_and_lifetimes.
Print Assumptions training_order_does_not_matter.
