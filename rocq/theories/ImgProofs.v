(** Dilation computes taxicab distances. *)
From Verif Require Import Np NpFacts Nd NdFacts Fl FlFacts VecModel SliceFacts ImgModel ImgSpec.
Open Scope Z_scope.

Lemma taxicab_nonneg a : forall b, 0 <= taxicab a b.
Proof. induction a as [|i a IH]; intros [|j b]; cbn [taxicab]; try lia. all: specialize (IH b); lia. Qed.
Lemma taxicab_refl a : taxicab a a = 0.
Proof. induction a as [|i a IH]; cbn [taxicab]; lia. Qed.
Lemma taxicab_0 a : forall b, length a = length b -> taxicab a b = 0 -> a = b.
Proof.
  induction a as [|i a IH]; intros [|j b] L E; try discriminate; [reflexivity|]. cbn [taxicab] in E. pose proof (taxicab_nonneg a b).
  f_equal; [lia|]. apply IH; [now injection L|lia].
Qed.
Lemma steps_taxicab a : forall j b, In j (steps a) -> taxicab a b <= taxicab j b + 1.
Proof.
  induction a as [|i a IH]; intros j b H; [easy|]. destruct b as [|k b]; [destruct j; cbn; lia|]. cbn [steps] in H. destruct H as [<-|[<-|H]]; cbn [taxicab]; try lia.
  apply in_map_iff in H. destruct H as [j' [<- H]]. cbn [taxicab]. specialize (IH j' b H). lia.
Qed.
(** A neighbour one step closer, inside the image. *)
Lemma step_towards s : forall a b, inside s a = true -> inside s b = true -> 0 < taxicab a b ->
  exists j, In j (steps a) /\ inside s j = true /\ taxicab j b = taxicab a b - 1.
Proof.
  induction s as [|n s IH]; intros [|i a] [|k b] Ha Hb HT; try discriminate.
  apply inside_cons in Ha, Hb. destruct Ha as [A1 A2], Hb as [B1 B2]. cbn [taxicab] in HT. destruct (Z.lt_trichotomy i k) as [C|[C|C]].
  - exists ((i + 1) :: a). split; [cbn [steps In]; auto|]. split; [apply inside_cons; split; [lia|assumption]|]. cbn [taxicab]. lia.
  - destruct (IH a b A2 B2) as [j [J1 [J2 J3]]]; [lia|]. exists (i :: j). split; [cbn [steps]; right; right; now apply in_map|].
    split; [apply inside_cons; split; [lia|assumption]|]. cbn [taxicab]. lia.
  - exists ((i - 1) :: a). split; [cbn [steps In]; auto|]. split; [apply inside_cons; split; [lia|assumption]|]. cbn [taxicab]. lia.
Qed.

(** ** Pixels within distance k *)
Definition near (x : nd Z) (k : Z) (idx : list Z) : Prop := exists j, nget x j = Some 1 /\ taxicab idx j <= k.
Lemma near_dec x k idx : {near x k idx} + {~ near x k idx}.
Proof.
  destruct (existsb (fun j => match nget x j with Some v => (v =? 1) && (taxicab idx j <=? k) | None => false end) (indices (nshape x))) eqn:E.
  - left. apply existsb_exists in E. destruct E as [j [_ E]]. exists j. destruct (nget x j) as [v|]; [|discriminate]. apply andb_true_iff in E.
    destruct E as [E1 E2]. apply Z.eqb_eq in E1. apply Z.leb_le in E2. now subst.
  - right. intros [j [H1 H2]]. assert (C : existsb (fun j => match nget x j with Some v => (v =? 1) && (taxicab idx j <=? k) | None => false end) (indices (nshape x)) = true).
    { apply existsb_exists. exists j. split; [apply In_indices; now apply (at_inside x j 1)|]. rewrite H1. cbn. now apply Z.leb_le. }
    congruence.
Qed.
Lemma near_mono x k l idx : k <= l -> near x k idx -> near x l idx.
Proof. intros H [j [A B]]. exists j. split; [assumption|lia]. Qed.
Lemma near_closest x k idx : near x k idx -> exists d, 0 <= d <= k /\ closest x 1 idx d.
Proof.
  intros H. assert (K : 0 <= k) by (destruct H as [j [_ B]]; pose proof (taxicab_nonneg idx j); lia).
  revert H. pattern k. revert k K. apply natlike_ind.
  - intros [j [A B]]. pose proof (taxicab_nonneg idx j). exists 0. split; [lia|]. split; [exists j; split; [assumption|lia]|]. intros i _. apply taxicab_nonneg.
  - intros k K IH H. destruct (near_dec x k idx) as [N|N]; [destruct (IH N) as [d [Hd C]]; exists d; split; [lia|assumption]|].
    destruct H as [j [A B]]. exists (Z.succ k). split; [lia|]. split.
    + exists j. split; [assumption|]. destruct (Z.le_gt_cases (taxicab idx j) k); [exfalso; apply N; now exists j|lia].
    + intros i Hi. destruct (Z.le_gt_cases (taxicab idx i) k); [exfalso; apply N; now exists i|lia].
Qed.
Lemma closest_near x idx d : closest x 1 idx d -> forall k, near x k idx <-> d <= k.
Proof.
  intros [[j [A B]] C] k. split.
  - intros [i [D E]]. specialize (C i D). lia.
  - intros H. exists j. split; [assumption|lia].
Qed.
Lemma near_step x k idx : inside (nshape x) idx = true -> 1 <= k ->
  (near x k idx <-> exists j, In j (idx :: steps idx) /\ inside (nshape x) j = true /\ near x (k - 1) j).
Proof.
  intros HI Hk. split.
  - intros [j [A B]]. pose proof (at_inside x j 1 A) as J. destruct (Z.le_gt_cases (taxicab idx j) 0) as [C|C].
    + exists idx. split; [now left|]. split; [assumption|]. exists j. split; [assumption|lia].
    + destruct (step_towards _ idx j HI J C) as [i [I1 [I2 I3]]]. exists i. split; [now right|]. split; [assumption|]. exists j. split; [assumption|lia].
  - intros [j [[<-|H] [J N]]]; [apply (near_mono x (k - 1)); [lia|assumption]|]. destruct N as [i [A B]]. exists i. split; [assumption|].
    pose proof (steps_taxicab idx j i H). lia.
Qed.

(** ** One step of the loop on one image *)
Definition news (x : nd Z) : nd bool := nzip (fun x t => x + b2z t =? 1) x (binary_dilation x).
Definition step1 (it mv : Z) (x : nd Z) : nd Z := nzip (fun x n => if n : bool then it + mv else x) x (news x).
Lemma wf_dilation x : wf x -> wf (binary_dilation x). Proof. intros [H _]. now apply wf_mk. Qed.
Lemma wf_news x : wf x -> wf (news x). Proof. intros H. apply wf_nzip; [assumption|now apply wf_dilation|reflexivity]. Qed.
Lemma wf_step1 it mv x : wf x -> wf (step1 it mv x). Proof. intros H. apply wf_nzip; [assumption|now apply wf_news|reflexivity]. Qed.
Lemma no_news it mv x : wf x -> nany (news x) = false -> step1 it mv x = x.
Proof.
  intros W N. apply nd_ext; [now apply wf_step1|assumption|reflexivity|]. intros idx I. cbn [step1 nzip nshape] in I.
  destruct (at_Some x idx W I) as [v Hv]. destruct (at_Some (news x) idx (wf_news x W) I) as [n Hn]. unfold step1. rewrite (at_nzip _ x (news x) idx v n eq_refl Hv Hn), Hv.
  destruct n; [|reflexivity]. assert (C : nany (news x) = true) by (apply nany_true; [now apply wf_news|]; eauto). congruence.
Qed.
Lemma combine_map_r {A B} (f : A -> B) l : combine l (map f l) = map (fun a => (a, f a)) l.
Proof. induction l; [reflexivity|]. cbn [map combine]. now f_equal. Qed.
Lemma dilate_loop_map mv its : forall X, (forall x, In x X -> wf x) ->
  dilate_loop its mv X = map (fun x => fold_left (fun y it => step1 it mv y) its x) X.
Proof.
  induction its as [|it its IH]; intros X W; cbn [dilate_loop fold_left].
  - now rewrite map_id.
  - rewrite combine_map_r, map_map. cbn [fst snd]. change (fun x => nzip (fun x0 t => x0 + b2z t =? 1) x (binary_dilation x)) with news.
    rewrite combine_map_r, map_map. cbn [fst snd]. fold (step1 it mv). change (fun x => nzip (fun (x0 : Z) (n : bool) => if n then it + mv else x0) x (news x)) with (step1 it mv).
    destruct (existsb nany (map news X)) eqn:E.
    + rewrite IH; [now rewrite map_map|]. intros x Hx. apply in_map_iff in Hx. destruct Hx as [y [<- Hy]]. apply wf_step1. now apply W.
    + transitivity (map (fun x => x) X); [now rewrite map_id|]. apply map_ext_in. intros x Hx.
      assert (N : nany (news x) = false).
      { destruct (nany (news x)) eqn:EN; [|reflexivity]. assert (C : existsb nany (map news X) = true) by (apply existsb_exists; exists (news x); split; [now apply in_map|assumption]). congruence. }
      assert (F : forall l, fold_left (fun y i => step1 i mv y) l x = x).
      { induction l as [|i l IHl]; [reflexivity|]. cbn [fold_left]. rewrite no_news by auto. exact IHl. }
      rewrite no_news by auto. now rewrite F.
Qed.

Definition inv (x : nd Z) (mv k : Z) (y : nd Z) : Prop :=
  nshape y = nshape x /\ wf y /\ forall idx, inside (nshape x) idx = true ->
    exists v, nget y idx = Some v /\ (near x 0 idx -> v = 1) /\
      (forall d, 1 <= d <= k -> closest x 1 idx d -> v = d + mv) /\ (~ near x k idx -> v = 0).
Lemma inv_value x mv k y idx v : 0 <= mv -> 0 <= k -> inv x mv k y -> nget y idx = Some v -> 0 <= v /\ (nonzero v = true <-> near x k idx).
Proof.
  intros Hm Hk [ES [_ H]] Hv. pose proof (at_inside _ _ _ Hv) as I. rewrite ES in I. destruct (H idx I) as [w [Hw [A [B C]]]]. assert (w = v) by congruence. subst w.
  unfold nonzero. destruct (near_dec x k idx) as [N|N].
  - destruct (near_closest x k idx N) as [d [Hd HC]]. destruct (Z.eq_dec d 0) as [->|D].
    + assert (near x 0 idx) by (apply (closest_near x idx 0 HC); lia). rewrite A by assumption. split; [lia|]. split; [tauto|reflexivity].
    + rewrite (B d) by (auto; lia). split; [lia|]. split; [tauto|]. intros _. destruct (Z.eqb_spec (d + mv) 0); [lia|reflexivity].
  - rewrite C by assumption. split; [lia|]. cbn. split; [discriminate|tauto].
Qed.
Lemma inv_dilated x mv k y idx : 0 <= mv -> 0 <= k -> inv x mv k y -> inside (nshape x) idx = true ->
  exists b, nget (binary_dilation y) idx = Some b /\ (b = true <-> near x (k + 1) idx).
Proof.
  intros Hm Hk HI I. pose proof HI as [ES [W _]]. unfold binary_dilation. rewrite at_mk, ES, I. eexists. split; [reflexivity|].
  rewrite existsb_exists, (near_step x (k + 1) idx I) by lia. replace (k + 1 - 1) with k by lia. split.
  - intros [j [H1 H2]]. destruct (nget y j) as [v|] eqn:E; [|discriminate]. exists j. split; [assumption|].
    split; [apply at_inside in E; now rewrite ES in E|]. now apply (inv_value x mv k y j v).
  - intros [j [H1 [H2 H3]]]. exists j. split; [assumption|]. destruct (at_Some y j W) as [v Hv]; [now rewrite ES|]. rewrite Hv. now apply (inv_value x mv k y j v).
Qed.
Lemma step1_at x mv k it y idx v : 0 <= mv -> 0 <= k -> inv x mv k y -> nget y idx = Some v ->
  nget (step1 it mv y) idx = Some (if near_dec x k idx then v else if near_dec x (k + 1) idx then it + mv else 0).
Proof.
  intros Hm Hk HI Hv. pose proof HI as [ES [W _]]. pose proof (at_inside _ _ _ Hv) as I. rewrite ES in I.
  destruct (inv_dilated x mv k y idx Hm Hk HI I) as [b [Hb Eb]]. destruct (inv_value x mv k y idx v Hm Hk HI Hv) as [V0 V1].
  assert (Hn : nget (news y) idx = Some (v + b2z b =? 1)) by (apply (at_nzip (fun x t => x + b2z t =? 1)); auto).
  unfold step1. rewrite (at_nzip _ y (news y) idx v _ eq_refl Hv Hn). f_equal.
  destruct (near_dec x k idx) as [N|N].
  - assert (b = true) as -> by (apply Eb, (near_mono x k); [lia|assumption]). apply V1 in N. unfold nonzero in N. cbn [b2z]. destruct (Z.eqb_spec v 0); [discriminate|].
    destruct (Z.eqb_spec (v + 1) 1); [lia|reflexivity].
  - assert (v = 0) as ->. { destruct (Z.eqb_spec v 0) as [|E]; [assumption|]. exfalso. apply N, V1. unfold nonzero. now destruct (Z.eqb_spec v 0). }
    destruct (near_dec x (k + 1) idx) as [M|M].
    + apply Eb in M. subst b. reflexivity.
    + destruct b; [exfalso; apply M, Eb; reflexivity|reflexivity].
Qed.
Lemma inv_step x mv k y : 0 <= mv -> 0 <= k -> inv x mv k y -> inv x mv (k + 1) (step1 (k + 1) mv y).
Proof.
  intros Hm Hk HI. pose proof HI as [ES [W H]]. split; [exact ES|]. split; [now apply wf_step1|]. intros idx I. destruct (H idx I) as [v [Hv [A [B C]]]].
  rewrite (step1_at x mv k (k + 1) y idx v Hm Hk HI Hv). eexists. split; [reflexivity|]. destruct (near_dec x k idx) as [N|N].
  - split; [assumption|]. split.
    + intros d Hd HC. apply B; [|assumption]. apply (closest_near x idx d HC) in N. lia.
    + intros M. exfalso. apply M, (near_mono x k); [lia|assumption].
  - split; [intros M; exfalso; apply N, (near_mono x 0); [lia|assumption]|]. destruct (near_dec x (k + 1) idx) as [M|M].
    + split; [|intros Q; contradiction]. intros d Hd HC. pose proof (proj1 (closest_near x idx d HC (k + 1)) M). destruct (Z.le_gt_cases d k) as [L|L]; [exfalso; apply N, (closest_near x idx d HC); lia|lia].
    + split; [|reflexivity]. intros d Hd HC. exfalso. apply M, (closest_near x idx d HC). lia.
Qed.
(** An iteration with number 0 writes zeros. *)
Lemma inv_step0 x y : inv x 0 0 y -> inv x 0 0 (step1 0 0 y).
Proof.
  intros HI. pose proof HI as [ES [W H]]. split; [exact ES|]. split; [now apply wf_step1|]. intros idx I. destruct (H idx I) as [v [Hv [A [B C]]]].
  rewrite (step1_at x 0 0 0 y idx v ltac:(lia) ltac:(lia) HI Hv). eexists. split; [reflexivity|]. destruct (near_dec x 0 idx) as [N|N].
  - split; [assumption|]. split; [intros d Hd; lia|]. contradiction.
  - split; [contradiction|]. split; [intros d Hd; lia|]. intros _. now destruct (near_dec x (0 + 1) idx).
Qed.
Lemma inv_init x mv : wf x -> binary x -> inv x mv 0 x.
Proof.
  intros W B. split; [reflexivity|]. split; [assumption|]. intros idx I. destruct (at_Some x idx W I) as [v Hv]. exists v. split; [assumption|].
  assert (N : near x 0 idx <-> v = 1).
  { split.
    - intros [j [J1 J2]]. assert (idx = j); [|congruence]. apply taxicab_0; [|pose proof (taxicab_nonneg idx j); lia].
      rewrite (inside_length _ _ I), (inside_length _ _ (at_inside _ _ _ J1)). reflexivity.
    - intros ->. exists idx. rewrite taxicab_refl. split; [assumption|lia]. }
  split; [apply N|]. split; [intros d Hd; lia|]. intros M. destruct (B idx v Hv) as [|E]; [assumption|]. exfalso. now apply M, N.
Qed.
Lemma py_range_S a b : a <= b -> py_range a (b + 1) = py_range a b ++ [b].
Proof. intros H. unfold py_range. replace (b + 1 - a) with ((b - a) + 1) by lia. unfold arange. rewrite tabZ_S by lia. rewrite map_app. cbn [map]. f_equal. f_equal. lia. Qed.
Lemma py_range_cons a b : a < b -> py_range a b = a :: py_range (a + 1) b.
Proof.
  intros H. unfold py_range, arange. replace (b - a) with ((b - (a + 1)) + 1) by lia. rewrite tabZ_S_front by lia. cbn [map]. f_equal; [lia|].
  rewrite !tabZ_map. apply tabZ_ext. intros i Hi. lia.
Qed.
Lemma py_range_nil a b : b <= a -> py_range a b = [].
Proof. intros H. unfold py_range, arange. now rewrite tabZ_nil by lia. Qed.
Lemma inv_loop x mv K : 0 <= mv -> 0 <= K -> forall y, inv x mv 0 y ->
  inv x mv K (fold_left (fun y it => step1 it mv y) (py_range 1 (K + 1)) y).
Proof.
  intros Hm HK y Hy. pattern K. revert K HK. apply natlike_ind.
  - rewrite py_range_nil by lia. exact Hy.
  - intros K HK IH. replace (Z.succ K + 1) with ((K + 1) + 1) by lia. rewrite py_range_S by lia. rewrite fold_left_app. cbn [fold_left].
    replace (Z.succ K) with (K + 1) by lia. now apply inv_step.
Qed.
