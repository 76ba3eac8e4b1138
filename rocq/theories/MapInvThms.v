(** Theorems about the independence of Mapper from the order of the samples and the unit of
    the filter values: C86. *)
From Coq Require Import Sorted Permutation.
From Verif Require Import Np NpFacts Fl FlFacts VecModel CoverModel CoverSpec CoverProofs CoverProofs2 CoverProofs3 CoverProofs4 CoverThms
  MapperModel MapperSpec MapperProofs MapperProofs2 MapperProofs3 MapperThms MapInvSpec.
Open Scope Z_scope.

(** ** Rearrangements *)
Lemma rearranges_surj n sigma : rearranges n sigma -> forall t, 0 <= t < n -> exists s, 0 <= s < n /\ sigma s = t.
Proof.
  intros [H1 H2] t Ht.
  assert (I : incl (arange n) (map sigma (arange n))).
  { apply NoDup_length_incl.
    - assert (D : NoDup (arange n)) by apply NoDup_arange.
      assert (G : forall l, NoDup l -> (forall s, In s l -> 0 <= s < n) -> NoDup (map sigma l)).
      { induction l as [|a l IH]; intros N B; [constructor|]. inversion N as [|? ? Na Nl]; subst. cbn [map]. constructor.
        - intros Ha. apply in_map_iff in Ha as [b [E Hb]]. apply Na. replace a with b; [assumption|]. apply H2; [apply B; now right|apply B; now left|assumption].
        - apply IH; [assumption|]. intros s Hs. apply B. now right. }
      apply G; [assumption|]. intros s. apply In_arange.
    - now rewrite map_length.
    - intros x Hx. apply in_map_iff in Hx as [s [<- Hs]]. apply In_arange. apply H1. now apply In_arange. }
  assert (Ht' : In t (map sigma (arange n))) by (apply I; now apply In_arange).
  apply in_map_iff in Ht' as [s [E Hs]]. exists s. split; [now apply In_arange|assumption].
Qed.
Lemma renumbered_perm n sigma l l' : rearranges n sigma -> (forall x, In x l -> 0 <= x < n) -> NoDup l -> NoDup l' ->
  renumbered n sigma l l' -> Permutation (map sigma l') l.
Proof.
  intros HS B D D' R. apply NoDup_Permutation; [|assumption|].
  - assert (B' : forall s, In s l' -> 0 <= s < n) by (intros s Hs; now apply R in Hs). clear R. induction l' as [|a l' IH]; [constructor|].
    inversion D' as [|? ? Na Nl]; subst. cbn [map]. constructor.
    + intros Ha. apply in_map_iff in Ha as [b [E Hb]]. apply Na. replace a with b; [assumption|]. apply (proj2 HS); [apply B'; now right|apply B'; now left|assumption].
    + apply IH; [assumption|]. intros s Hs. apply B'. now right.
  - intros x. rewrite in_map_iff. split.
    + intros [s [<- Hs]]. now apply R in Hs.
    + intros Hx. destruct (rearranges_surj n sigma HS x (B x Hx)) as [s [Hs <-]]. exists s. split; [reflexivity|]. now apply R.
Qed.
Lemma renumbered_len n sigma l l' : rearranges n sigma -> (forall x, In x l -> 0 <= x < n) -> NoDup l -> NoDup l' ->
  renumbered n sigma l l' -> zlen l' = zlen l.
Proof.
  intros HS B D D' R. pose proof (Permutation_length (renumbered_perm n sigma l l' HS B D D' R)) as E. rewrite map_length in E. unfold zlen. now rewrite E.
Qed.

(** Position of the first entry satisfying a test. *)
Fixpoint find_pos {A} (f : A -> bool) (l : list A) : Z :=
  match l with [] => 0 | x :: t => if f x then 0 else 1 + find_pos f t end.
Lemma find_pos_spec {A} (f : A -> bool) l : (exists x, In x l /\ f x = true) ->
  exists x, Znth l (find_pos f l) = Some x /\ f x = true.
Proof.
  induction l as [|a l IH]; intros [x [Hx E]]; [destruct Hx|]. cbn [find_pos]. destruct (f a) eqn:Ea; [exists a; split; [reflexivity|assumption]|].
  destruct Hx as [->|Hx]; [congruence|]. destruct IH as [y [Ey Fy]]; [eauto|]. exists y. split; [|assumption].
  rewrite Znth_S; [assumption|]. eapply Znth_pos, Ey.
Qed.

(** ** The graph of labels that describe the same clusters *)
Section Nerve.
Variables (n : Z) (sigma : Z -> Z) (L L' : list (list (Z * Z))).
Hypotheses (HS : rearranges n sigma) (LL : zlen L = n) (LL' : zlen L' = n) (RL : refined L) (RL' : refined L').
Hypothesis H1 : forall s i, 0 <= s < n -> ((exists l, has_label L (sigma s) (i, l)) <-> (exists l, has_label L' s (i, l))).
Hypothesis H2 : forall s t i l m l' m', has_label L (sigma s) (i, l) -> has_label L (sigma t) (i, m) ->
  has_label L' s (i, l') -> has_label L' t (i, m') -> (l = m <-> l' = m').
Variables (nodes nodes' : list ((Z * Z) * list Z)).
Hypotheses (N : nodes_of L nodes) (N' : nodes_of L' nodes').

Lemma label_range X s k : has_label X s k -> 0 <= s < zlen X.
Proof. intros [t [E _]]. eapply Znth_Some_lt, E. Qed.
Lemma label_unique X s i a b : refined X -> has_label X s (i, a) -> has_label X s (i, b) -> a = b.
Proof.
  intros R [t [Et It]] [t' [Et' It']]. assert (t' = t) as -> by congruence.
  pose proof (R t (Znth_In _ _ _ Et)) as D. clear -D It It'. induction t as [|[u v] t IH]; [destruct It|].
  cbn in D. inversion D as [|? ? Nn D']; subst. destruct It as [It|It], It' as [It'|It']; auto.
  - congruence.
  - injection It as -> ->. exfalso. apply Nn. now apply (in_map fst) in It'.
  - injection It' as -> ->. exfalso. apply Nn. now apply (in_map fst) in It.
Qed.
Lemma node_of_label X ns s k : nodes_of X ns -> has_label X s k -> exists x l, Znth ns x = Some (k, l) /\ In s l.
Proof.
  intros M H. pose proof (has_label_concat _ _ _ H) as Ik. apply first_occ_In in Ik. rewrite <- (proj1 M) in Ik.
  apply in_map_iff in Ik as [[k' l] [Ek Ik]]. cbn in Ek. subst k'. apply In_Znth in Ik as [x [Hx Ex]]. exists x, l. split; [assumption|].
  apply (proj2 M k l); [eapply Znth_In, Ex|assumption].
Qed.
Lemma node_label X ns x k l s : nodes_of X ns -> Znth ns x = Some (k, l) -> (In s l <-> has_label X s k).
Proof. intros M E. apply (proj2 M k l). eapply Znth_In, E. Qed.
Lemma node_key_unique X ns x y k l m : nodes_of X ns -> Znth ns x = Some (k, l) -> Znth ns y = Some (k, m) -> x = y.
Proof.
  intros M E F. assert (D : NoDup (map fst ns)) by (rewrite (proj1 M); apply first_occ_NoDup).
  pose proof (Znth_Some_lt _ _ _ E) as Bx. pose proof (Znth_Some_lt _ _ _ F) as By.
  assert (E' : nth_error (map fst ns) (Z.to_nat x) = Some k) by (apply map_nth_error with (f := fst) in E || (unfold Znth in E; destruct (x <? 0); [discriminate|]; apply map_nth_error with (f := fst) in E; exact E)).
  assert (F' : nth_error (map fst ns) (Z.to_nat y) = Some k) by (apply map_nth_error with (f := fst) in F || (unfold Znth in F; destruct (y <? 0); [discriminate|]; apply map_nth_error with (f := fst) in F; exact F)).
  rewrite NoDup_nth_error in D. assert (Z.to_nat x = Z.to_nat y); [|lia]. apply D; [|congruence].
  apply nth_error_Some. congruence.
Qed.

(** Nodes of one pullback set sharing a sample contain the same samples. *)
Lemma same_samples i a b x y l l' s0 : Znth nodes x = Some ((i, a), l) -> Znth nodes' y = Some ((i, b), l') ->
  In s0 l' -> In (sigma s0) l -> renumbered n sigma l l'.
Proof.
  intros E E' I0 J0 s. rewrite (node_label L' nodes' y _ l' s N' E'), (node_label L nodes x _ l (sigma s) N E).
  apply (node_label L' nodes' y _ l' s0 N' E') in I0. apply (node_label L nodes x _ l _ N E) in J0. split.
  - intros H. assert (B : 0 <= s < n) by (rewrite <- LL'; eapply label_range, H). split; [assumption|].
    destruct (proj2 (H1 s i B)) as [c Hc]; [eauto|]. assert (c = a); [|now subst]. apply (H2 s s0 i c a b b); auto.
  - intros [B H]. destruct (proj1 (H1 s i B)) as [c Hc]; [eauto|]. assert (c = b); [|now subst]. apply (H2 s s0 i a a c b); auto.
Qed.

Definition partner (x : Z) (nd' : (Z * Z) * list Z) : bool :=
  match Znth nodes x with
  | Some (k, l) => (fst k =? fst (fst nd')) && existsb (fun s => existsb (Z.eqb (sigma s)) l) (snd nd')
  | None => false
  end.
Definition tau (x : Z) : Z := find_pos (partner x) nodes'.
Lemma partner_spec x k l nd' : Znth nodes x = Some (k, l) ->
  (partner x nd' = true <-> fst k = fst (fst nd') /\ exists s, In s (snd nd') /\ In (sigma s) l).
Proof.
  intros E. unfold partner. rewrite E, andb_true_iff, Z.eqb_eq, existsb_exists. split.
  - intros [A [s [Hs B]]]. apply existsb_exists in B as [t [Ht B]]. apply Z.eqb_eq in B. subst t. eauto.
  - intros [A [s [Hs B]]]. split; [assumption|]. exists s. split; [assumption|]. apply existsb_exists. exists (sigma s). split; [assumption|apply Z.eqb_refl].
Qed.
Lemma partner_ex x k l : Znth nodes x = Some (k, l) -> exists nd', In nd' nodes' /\ partner x nd' = true.
Proof.
  intros E. destruct (proj2 N k l (Znth_In _ _ _ E)) as [NE [_ M]]. destruct l as [|t l]; [easy|].
  assert (H : has_label L t k) by (apply M; now left). destruct (rearranges_surj n sigma HS t) as [s [Bs <-]]; [rewrite <- LL; eapply label_range, H|].
  destruct k as [i a]. destruct (proj1 (H1 s i Bs)) as [b Hb]; [eauto|]. destruct (node_of_label L' nodes' s (i, b) N' Hb) as [y [l' [Ey Is]]].
  exists ((i, b), l'). split; [eapply Znth_In, Ey|]. apply (partner_spec x _ _ _ E). cbn. split; [reflexivity|]. exists s. split; [assumption|now left].
Qed.
Lemma tau_spec x k l : Znth nodes x = Some (k, l) -> exists k' l', Znth nodes' (tau x) = Some (k', l') /\ fst k' = fst k /\
  renumbered n sigma l l' /\ exists s, In s l' /\ In (sigma s) l.
Proof.
  intros E. destruct (find_pos_spec (partner x) nodes' (partner_ex x k l E)) as [[[j b] l'] [Ey P]]. exists (j, b), l'.
  apply (partner_spec x _ _ _ E) in P. cbn in P. destruct P as [A [s [Hs Bs]]]. split; [exact Ey|]. split; [easy|]. destruct k as [i a]. cbn in A. subst j.
  split; [eapply same_samples; eassumption|eauto].
Qed.
Lemma tau_onto y k' l' : Znth nodes' y = Some (k', l') -> exists x k l, Znth nodes x = Some (k, l) /\ tau x = y.
Proof.
  intros Ey. destruct (proj2 N' k' l' (Znth_In _ _ _ Ey)) as [NE [_ M]]. assert (exists s, In s l') as [s Is0] by (destruct l' as [|s ?]; [easy|exists s; now left]).
  assert (H : has_label L' s k') by now apply M. assert (Bs : 0 <= s < n) by (rewrite <- LL'; eapply label_range, H).
  destruct k' as [i b]. destruct (proj2 (H1 s i Bs)) as [a Ha]; [eauto|]. destruct (node_of_label L nodes (sigma s) (i, a) N Ha) as [x [l [Ex Is]]].
  exists x, (i, a), l. split; [assumption|]. destruct (tau_spec x _ _ Ex) as [[j c] [m [Et [Ej [R _]]]]]. cbn in Ej. subst j.
  assert (Hc : has_label L' s (i, c)) by (apply (node_label L' nodes' _ _ m s N' Et); now apply R).
  assert (c = b) as -> by (eapply label_unique; [exact RL'|exact Hc|exact H]). eapply node_key_unique; [exact N'|exact Et|exact Ey].
Qed.
Lemma tau_inj x y k l k' l' : Znth nodes x = Some (k, l) -> Znth nodes y = Some (k', l') -> tau x = tau y -> x = y.
Proof.
  intros Ex Ey E. destruct (tau_spec x _ _ Ex) as [kx [lx [Tx [Fx [Rx [s [Is Js]]]]]]]. destruct (tau_spec y _ _ Ey) as [ky [ly [Ty [Fy [Ry _]]]]].
  rewrite <- E, Tx in Ty. injection Ty as <- <-. apply Ry in Is. destruct Is as [Bs Is].
  apply (node_label L nodes x _ _ _ N Ex) in Js. apply (node_label L nodes y _ _ _ N Ey) in Is. destruct k as [i a], k' as [j b]. cbn in *. assert (j = i) as -> by congruence.
  assert (a = b) as -> by (eapply label_unique; [exact RL|exact Js|exact Is]). eapply node_key_unique; [exact N|exact Ex|exact Ey].
Qed.

Lemma joined_iff X ns mi store es x y w m : nodes_of X ns -> (forall e, In e es <-> overlap_edge mi store ns e) ->
  (joined es x y w m <-> exists k1 l1 k2 l2 inter, Znth ns x = Some (k1, l1) /\ Znth ns y = Some (k2, l2) /\ fst k1 <> fst k2 /\
     common l1 l2 inter /\ 1 <= zlen inter /\ mi <= zlen inter /\ w = zlen inter /\ m = (if store then Some inter else None)).
Proof.
  intros M He. assert (CS : forall a b i, common a b i -> common b a i) by (intros a b i [A B]; split; [exact A|]; intros z; rewrite B; tauto). split.
  - intros [e [Ie [D [<- <-]]]]. apply He in Ie as [k1 [l1 [k2 [l2 [inter [B [E1 [E2 [F [C [A1 [A2 [A3 A4]]]]]]]]]]]]].
    destruct D as [[<- <-]|[<- <-]]; [exists k1, l1, k2, l2, inter|exists k2, l2, k1, l1, inter]; repeat (split; [solve [auto]|]); auto.
  - intros [k1 [l1 [k2 [l2 [inter [E1 [E2 [F [C [A1 [A2 [-> ->]]]]]]]]]]]].
    pose proof (Znth_Some_lt _ _ _ E1) as B1. pose proof (Znth_Some_lt _ _ _ E2) as B2.
    destruct (Z.lt_trichotomy x y) as [T|[T|T]].
    + exists (Edge x y (zlen inter) (if store then Some inter else None)). split; [|cbn; auto]. apply He. exists k1, l1, k2, l2, inter. cbn. repeat (split; [solve [auto|lia]|]); auto.
    + subst y. rewrite E1 in E2. injection E2 as -> ->. now destruct F.
    + exists (Edge y x (zlen inter) (if store then Some inter else None)). split; [|cbn; auto]. apply He. exists k2, l2, k1, l1, inter. cbn. repeat (split; [solve [auto|lia]|]); auto.
Qed.
Lemma common_unique2 a b i j : common a b i -> common a b j -> i = j.
Proof. intros [S1 C1] [S2 C2]. apply sorted_lt_unique; [assumption|assumption|]. intros x. now rewrite C1, C2. Qed.
Lemma common_ex a b : StronglySorted Z.lt a -> exists i, common a b i.
Proof.
  intros S. exists (filter (fun x => existsb (Z.eqb x) b) a). split.
  - clear -S. induction S as [|x a S IH F]; cbn [filter]; [constructor|]. destruct (existsb (Z.eqb x) b); [|assumption]. constructor; [assumption|].
    rewrite Forall_forall in *. intros z Hz. apply filter_In in Hz. now apply F.
  - intros x. rewrite filter_In, existsb_exists. split.
    + intros [A [z [Hz E]]]. apply Z.eqb_eq in E. subst z. auto.
    + intros [A B]. split; [assumption|]. exists x. split; [assumption|apply Z.eqb_refl].
Qed.

Theorem same_labels_same_graph mi store es es' :
  (forall e, In e es <-> overlap_edge mi store nodes e) -> (forall e, In e es' <-> overlap_edge mi store nodes' e) ->
  same_graph n sigma nodes es nodes' es'.
Proof.
  intros He He'. exists tau.
  assert (EX : forall x, 0 <= x < zlen nodes -> exists k l, Znth nodes x = Some (k, l)) by (intros x Hx; destruct (Znth_ex nodes x Hx) as [[k l] E]; eauto).
  assert (CI : forall x y k1 l1 k2 l2 k1' l1' k2' l2' i i', Znth nodes x = Some (k1, l1) -> Znth nodes y = Some (k2, l2) ->
     Znth nodes' (tau x) = Some (k1', l1') -> Znth nodes' (tau y) = Some (k2', l2') -> common l1 l2 i -> common l1' l2' i' ->
     renumbered n sigma i i' /\ zlen i' = zlen i).
  { intros x y k1 l1 k2 l2 k1' l1' k2' l2' i i' E1 E2 F1 F2 C C'.
    destruct (tau_spec x _ _ E1) as [k [l [G1 [_ [R1 _]]]]]. rewrite F1 in G1. injection G1 as <- <-.
    destruct (tau_spec y _ _ E2) as [k [l [G2 [_ [R2 _]]]]]. rewrite F2 in G2. injection G2 as <- <-.
    assert (R : renumbered n sigma i i').
    { intros s. rewrite (proj2 C'), (proj2 C). rewrite (R1 s), (R2 s). tauto. }
    split; [exact R|]. apply (renumbered_len n sigma i i' HS); [|apply sorted_lt_NoDup, C|apply sorted_lt_NoDup, C'|exact R].
    intros s Hs. apply C in Hs. destruct Hs as [Hs _]. apply (node_label L nodes x _ _ _ N E1) in Hs. rewrite <- LL. eapply label_range, Hs. }
  assert (SS : forall X ns x k l, nodes_of X ns -> Znth ns x = Some (k, l) -> StronglySorted Z.lt l).
  { intros X ns x k l M E. now apply (proj2 M k l (Znth_In _ _ _ E)). }
  split; [|split; [|split; [|split; [|split]]]].
  - intros x Hx. destruct (EX x Hx) as [k [l E]]. destruct (tau_spec x _ _ E) as [k' [l' [F _]]]. eapply Znth_Some_lt, F.
  - intros x y Hx Hy E. destruct (EX x Hx) as [k [l Ex]]. destruct (EX y Hy) as [k' [l' Ey]]. eapply tau_inj; eassumption.
  - intros y Hy. destruct (Znth_ex nodes' y Hy) as [[k l] E]. destruct (tau_onto y _ _ E) as [x [k' [l' [Ex Et]]]]. exists x. split; [eapply Znth_Some_lt, Ex|exact Et].
  - intros x k l k' l' E F. destruct (tau_spec x _ _ E) as [k2 [l2 [G [A [B _]]]]]. rewrite F in G. injection G as <- <-. auto.
  - intros x y w Hx Hy. destruct (EX x Hx) as [k1 [l1 E1]]. destruct (EX y Hy) as [k2 [l2 E2]].
    destruct (tau_spec x _ _ E1) as [k1' [l1' [F1 [K1 _]]]]. destruct (tau_spec y _ _ E2) as [k2' [l2' [F2 [K2 _]]]]. split.
    + intros [m J]. apply (joined_iff L nodes mi store es x y w m N He) in J as [a1 [b1 [a2 [b2 [i [G1 [G2 [D [C [A1 [A2 [-> _]]]]]]]]]]]].
      rewrite E1 in G1. injection G1 as <- <-. rewrite E2 in G2. injection G2 as <- <-. destruct (common_ex l1' l2' (SS _ _ _ _ _ N' F1)) as [i' C'].
      destruct (CI _ _ _ _ _ _ _ _ _ _ _ _ E1 E2 F1 F2 C C') as [_ Z]. rewrite <- Z in *. exists (if store then Some i' else None).
      apply (joined_iff L' nodes' mi store es' _ _ _ _ N' He'). exists k1', l1', k2', l2', i'. rewrite K1, K2. repeat (split; [solve [auto]|]). auto.
    + intros [m J]. apply (joined_iff L' nodes' mi store es' _ _ w m N' He') in J as [a1 [b1 [a2 [b2 [i' [G1 [G2 [D [C' [A1 [A2 [-> _]]]]]]]]]]]].
      rewrite F1 in G1. injection G1 as <- <-. rewrite F2 in G2. injection G2 as <- <-. destruct (common_ex l1 l2 (SS _ _ _ _ _ N E1)) as [i C].
      destruct (CI _ _ _ _ _ _ _ _ _ _ _ _ E1 E2 F1 F2 C C') as [_ Z]. rewrite Z in *. exists (if store then Some i else None).
      apply (joined_iff L nodes mi store es _ _ _ _ N He). exists k1, l1, k2, l2, i. rewrite <- K1, <- K2. repeat (split; [solve [auto]|]). auto.
  - intros x y w w' m m' Hx Hy J J'.
    apply (joined_iff L nodes mi store es _ _ _ _ N He) in J as [a1 [b1 [a2 [b2 [i [G1 [G2 [D [C [A1 [A2 [A3 ->]]]]]]]]]]]].
    apply (joined_iff L' nodes' mi store es' _ _ _ _ N' He') in J' as [a1' [b1' [a2' [b2' [i' [G1' [G2' [D' [C' [A1' [A2' [A3' ->]]]]]]]]]]]].
    destruct store; [|exact I]. now destruct (CI _ _ _ _ _ _ _ _ _ _ _ _ G1 G2 G1' G2' C C').
Qed.
End Nerve.

(** ** Clustering *)
Lemma picks_Znth {A} (X : list A) rel Y q p : picks X rel Y -> Znth rel q = Some p -> Znth Y q = Znth X p.
Proof.
  intros P E. destruct (Znth_ex Y q) as [y Ey]; [rewrite <- (Forall2_zlen _ _ _ P); eapply Znth_Some_lt, E|].
  rewrite Ey. symmetry. exact (Forall2_Znth _ _ _ _ _ _ P E Ey).
Qed.
Section Clusters.
Context {A : Type}.
Variables (n : Z) (sigma : Z -> Z) (pre : bool) (clusterer : list (list A) -> option (list Z) -> res (list Z)).
Variables (X X' : list (list A)) (cols cols' : list (list bool)).
Hypotheses (HS : rearranges n sigma) (LX : zlen X = n) (HX : data_rearranged pre sigma X X') (OF : order_free pre clusterer).
Hypotheses (LC : zlen cols' = zlen cols) (Lc : forall c, In c cols -> zlen c = n)
  (HC : forall i c c', Znth cols i = Some c -> Znth cols' i = Some c' -> rearranged sigma c c').

Lemma lenX' : zlen X' = n.
Proof. unfold data_rearranged in HX. destruct pre; [destruct HX as [_ [_ [E _]]]|destruct HX as [E _]]; congruence. Qed.
Lemma colX' c' : In c' cols' -> zlen c' = n.
Proof.
  intros I. apply In_Znth in I as [i [Hi E]]. destruct (Znth_ex cols i) as [c Ec]; [now rewrite <- LC|].
  rewrite (proj1 (HC i c c' Ec E)). apply Lc. eapply Znth_In, Ec.
Qed.
Lemma mask_moves i c c' s : Znth cols i = Some c -> Znth cols' i = Some c' -> 0 <= s < n -> Znth c' s = Znth c (sigma s).
Proof. intros E E' B. apply (proj2 (HC i c c' E E')). now rewrite (Lc c (Znth_In _ _ _ E)). Qed.

Lemma portion_unique (Y0 : list (list A)) rel Y Y2 : portion pre Y0 rel Y -> portion pre Y0 rel Y2 -> Y = Y2.
Proof.
  unfold portion. destruct pre.
  - intros [r [P F]] [r2 [P2 F2]]. assert (r2 = r) as -> by (eapply picks_det; eassumption). clear P P2.
    revert Y2 F2. induction F as [|a b r Y H F IH]; intros Y2 F2; inversion F2; subst; [reflexivity|]. f_equal; [eapply picks_det; eassumption|now apply IH].
  - apply picks_det.
Qed.

Definition pos (l : list Z) (v : Z) : Z := find_pos (Z.eqb v) l.
Lemma pos_spec l v : In v l -> Znth l (pos l v) = Some v.
Proof.
  intros I. destruct (find_pos_spec (Z.eqb v) l) as [x [E F]]; [exists v; split; [assumption|apply Z.eqb_refl]|].
  apply Z.eqb_eq in F. now subst x.
Qed.
Lemma Znth_NoDup (l : list Z) i j v : NoDup l -> Znth l i = Some v -> Znth l j = Some v -> i = j.
Proof.
  intros D E F. pose proof (Znth_Some_lt _ _ _ E) as B. pose proof (Znth_Some_lt _ _ _ F) as B'.
  assert (G : forall k, 0 <= k -> Znth l k = nth_error l (Z.to_nat k)) by (intros k Hk; unfold Znth; now rewrite (proj2 (Z.ltb_ge k 0)) by lia).
  rewrite G in E, F by lia. rewrite NoDup_nth_error in D. assert (Z.to_nat i = Z.to_nat j); [|lia]. apply D; [|congruence]. apply nth_error_Some. congruence.
Qed.

(** Two samples of a portion get the same label in one numbering iff they do in the other. *)
Lemma same_cluster i c c' ls ls' : Znth cols i = Some c -> Znth cols' i = Some c' ->
  clusters_portion pre clusterer None X c (flatnonzero c) ls -> clusters_portion pre clusterer None X' c' (flatnonzero c') ls' ->
  forall q1 q2 r1 r2 s t, Znth (flatnonzero c) q1 = Some (sigma s) -> Znth (flatnonzero c) q2 = Some (sigma t) ->
    Znth (flatnonzero c') r1 = Some s -> Znth (flatnonzero c') r2 = Some t ->
    (Znth ls q1 = Znth ls q2 <-> Znth ls' r1 = Znth ls' r2).
Proof.
  intros E E' C C' q1 q2 r1 r2 s t Q1 Q2 R1 R2. set (rel := flatnonzero c) in *. set (rel' := flatnonzero c') in *.
  pose proof (flatnonzero_members c) as M. pose proof (flatnonzero_members c') as M'. fold rel in M. fold rel' in M'.
  assert (Lcc : zlen c = n) by (apply Lc; eapply Znth_In, E). assert (Lcc' : zlen c' = n) by (apply colX'; eapply Znth_In, E').
  assert (R : renumbered n sigma rel rel').
  { intros v. rewrite (proj2 M' v), (proj2 M (sigma v)). split.
    - intros H. assert (B : 0 <= v < n) by (rewrite <- Lcc'; eapply Znth_Some_lt, H). split; [assumption|]. rewrite (mask_moves i c c' v) in H; assumption.
    - intros [B H]. rewrite (mask_moves i c c' v); assumption. }
  assert (B : forall v, In v rel -> 0 <= v < n) by (intros v Hv; apply M in Hv; rewrite <- Lcc; eapply Znth_Some_lt, Hv).
  assert (B' : forall v, In v rel' -> 0 <= v < n) by (intros v Hv; apply M' in Hv; rewrite <- Lcc'; eapply Znth_Some_lt, Hv).
  assert (D : NoDup rel) by apply sorted_lt_NoDup, M. assert (D' : NoDup rel') by apply sorted_lt_NoDup, M'.
  assert (Ln : zlen rel' = zlen rel) by (eapply renumbered_len; eassumption).
  destruct C as [Y [w [_ [P [W [EL ZL]]]]]]. destruct w; [destruct W|]. destruct C' as [Y' [w [_ [P' [W' [EL' ZL']]]]]]. destruct w; [destruct W'|].
  set (pi := fun q => match Znth rel' q with Some v => pos rel (sigma v) | None => 0 end).
  assert (Hpi : forall q v, Znth rel' q = Some v -> Znth rel (pi q) = Some (sigma v)).
  { intros q v Hq. unfold pi. rewrite Hq. apply pos_spec. apply R. eapply Znth_In, Hq. }
  assert (LY : zlen Y = zlen rel).
  { unfold portion in P. destruct pre; [destruct P as [rows [P F]]; rewrite <- (Forall2_zlen _ _ _ F), <- (Forall2_zlen _ _ _ P); reflexivity|symmetry; exact (Forall2_zlen _ _ _ P)]. }
  assert (LY' : zlen Y' = zlen rel').
  { unfold portion in P'. destruct pre; [destruct P' as [rows [P' F]]; rewrite <- (Forall2_zlen _ _ _ F), <- (Forall2_zlen _ _ _ P'); reflexivity|symmetry; exact (Forall2_zlen _ _ _ P')]. }
  assert (RP : rearranges (zlen Y) pi).
  { rewrite LY. split.
    - intros q Hq. destruct (Znth_ex rel' q) as [v Hv]; [lia|]. eapply Znth_Some_lt, Hpi, Hv.
    - intros q r Hq Hr Epi. destruct (Znth_ex rel' q) as [v Hv]; [lia|]. destruct (Znth_ex rel' r) as [u Hu]; [lia|].
      pose proof (Hpi q v Hv) as G1. pose proof (Hpi r u Hu) as G2. rewrite Epi, G2 in G1. injection G1 as G1.
      assert (u = v) as -> by (apply (proj2 HS); [apply B'; eapply Znth_In, Hu|apply B'; eapply Znth_In, Hv|assumption]).
      eapply Znth_NoDup; [exact D'|exact Hv|exact Hu]. }
  assert (DR : data_rearranged pre pi Y Y').
  { unfold data_rearranged in HX |- *. unfold portion in P, P'. destruct pre.
    - destruct HX as [SX [SX' [LXX HXX]]]. destruct P as [rows [P F]], P' as [rows' [P' F']].
      assert (Lr : forall y, In y Y -> zlen y = zlen Y).
      { intros y Hy. apply In_Znth in Hy as [q [Hq Ey]]. destruct (Znth_ex rows q) as [r Er]; [now rewrite (Forall2_zlen _ _ _ F)|].
        rewrite LY. symmetry. exact (Forall2_zlen _ _ _ (Forall2_Znth _ _ _ _ _ _ F Er Ey)). }
      assert (Lr' : forall y, In y Y' -> zlen y = zlen Y').
      { intros y Hy. apply In_Znth in Hy as [q [Hq Ey]]. destruct (Znth_ex rows' q) as [r Er]; [now rewrite (Forall2_zlen _ _ _ F')|].
        rewrite LY'. symmetry. exact (Forall2_zlen _ _ _ (Forall2_Znth _ _ _ _ _ _ F' Er Ey)). }
      split; [exact Lr|]. split; [exact Lr'|]. split; [lia|]. intros q u r r' Hu Er' Er.
      destruct (Znth_ex rel' q) as [v Hv]; [rewrite <- LY'; eapply Znth_Some_lt, Er'|]. destruct (Znth_ex rel' u) as [v2 Hv2]; [lia|].
      destruct (Znth_ex rows' q) as [row' Erow']; [rewrite (Forall2_zlen _ _ _ F'); eapply Znth_Some_lt, Er'|].
      destruct (Znth_ex rows (pi q)) as [row Erow]; [rewrite (Forall2_zlen _ _ _ F); eapply Znth_Some_lt, Er|].
      pose proof (Forall2_Znth _ _ _ _ _ _ F' Erow' Er') as K'. pose proof (Forall2_Znth _ _ _ _ _ _ F Erow Er) as K. cbn beta in K, K'.
      rewrite (picks_Znth row' rel' r' u v2 K' Hv2), (picks_Znth row rel r (pi u) (sigma v2) K (Hpi u v2 Hv2)).
      apply (HXX v v2); [rewrite LX; apply B'; eapply Znth_In, Hv2| |].
      + rewrite <- (picks_Znth X' rel' rows' q v P' Hv). exact Erow'.
      + rewrite <- (picks_Znth X rel rows (pi q) (sigma v) P (Hpi q v Hv)). exact Erow.
    - split; [lia|]. intros q Hq. destruct (Znth_ex rel' q) as [v Hv]; [lia|].
      rewrite (picks_Znth X' rel' Y' q v P' Hv), (picks_Znth X rel Y (pi q) (sigma v) P (Hpi q v Hv)).
      apply (proj2 HX). rewrite LX. apply B'. eapply Znth_In, Hv. }
  assert (E1 : pi r1 = q1) by (eapply Znth_NoDup; [exact D|exact (Hpi r1 s R1)|exact Q1]).
  assert (E2 : pi r2 = q2) by (eapply Znth_NoDup; [exact D|exact (Hpi r2 t R2)|exact Q2]).
  rewrite <- E1, <- E2. symmetry. pose proof (Znth_Some_lt _ _ _ R1). pose proof (Znth_Some_lt _ _ _ R2). apply (proj2 OF pi Y Y' ls ls'); try assumption; lia.
Qed.

Variables (L L' : list (list (Z * Z))).
Hypotheses (LL : zlen L = n) (LL' : zlen L' = n)
  (HL : forall p t, Znth L p = Some t -> labels_of pre false clusterer None X cols p t)
  (HL' : forall p t, Znth L' p = Some t -> labels_of pre false clusterer None X' cols' p t).
Lemma sqX : pre = true -> square X. Proof. intros E. unfold data_rearranged in HX. rewrite E in HX. apply HX. Qed.
Lemma sqX' : pre = true -> square X'. Proof. intros E. unfold data_rearranged in HX. rewrite E in HX. apply HX. Qed.
Lemma refined_L X0 cols0 L0 : (forall p t, Znth L0 p = Some t -> labels_of pre false clusterer None X0 cols0 p t) -> refined L0.
Proof. intros H t It. apply In_Znth in It as [s [_ Et]]. apply sorted_lt_NoDup. now apply (H s t). Qed.
Lemma label_data X0 cols0 L0 s i l : (forall p t, Znth L0 p = Some t -> labels_of pre false clusterer None X0 cols0 p t) ->
  has_label L0 s (i, l) -> exists c ls q, Znth cols0 i = Some c /\ clusters_portion pre clusterer None X0 c (flatnonzero c) ls /\
    Znth (flatnonzero c) q = Some s /\ Znth ls q = Some l.
Proof.
  intros H [t [Et It]]. apply (proj2 (H s t Et)) in It as [c [rel [ls [q [Ec [C [Eq El]]]]]]]. exists c, ls, q. split; [assumption|].
  assert (rel = flatnonzero c) as -> by (destruct C as [Y [w [M _]]]; now apply members_unique). auto.
Qed.
Lemma data_label X0 cols0 L0 s i c : zlen X0 = n -> (pre = true -> square X0) -> zlen L0 = n -> zlen c = n ->
  (forall p t, Znth L0 p = Some t -> labels_of pre false clusterer None X0 cols0 p t) ->
  Znth cols0 i = Some c -> Znth c s = Some true -> exists l, has_label L0 s (i, l).
Proof using OF.
  clear HL HL' HC Lc LL LL' LC LX HX.
  intros LX0 Sq LL0 Lc0 H Ei Ec. pose proof (flatnonzero_members c) as M. pose proof (Znth_Some_lt _ _ _ Ec) as Hs. rewrite Lc0 in Hs.
  destruct (Znth_ex L0 s) as [t Et]; [now rewrite LL0|].
  assert (Rg : forall q, In q (flatnonzero c) -> 0 <= q < zlen X0) by (intros q Hq; apply M in Hq; apply Znth_Some_lt in Hq; lia).
  destruct (portion_ex pre X0 (flatnonzero c) Rg) as [Y [Po LY]]; [intros E r Hr; now apply Sq|]. destruct (proj1 OF Y) as [ls [E Z]].
  apply M in Ec. apply In_Znth in Ec as [q [Hq Eq]]. destruct (Znth_ex ls q) as [l Elq]; [lia|].
  exists l, t. split; [assumption|]. apply (proj2 (H s t Et)). exists c, (flatnonzero c), ls, q.
  split; [assumption|]. split; [|auto]. exists Y, None. split; [exact M|]. split; [exact Po|]. split; [exact Logic.I|]. split; [exact E|congruence].
Qed.
Lemma cluster_H1 s i : 0 <= s < n -> ((exists l, has_label L (sigma s) (i, l)) <-> (exists l, has_label L' s (i, l))).
Proof.
  intros B. split; intros [l H].
  - destruct (label_data X cols L _ _ _ HL H) as [c [ls [q [Ec [_ [Eq _]]]]]]. destruct (Znth_ex cols' i) as [c' Ec']; [rewrite LC; eapply Znth_Some_lt, Ec|].
    apply (data_label X' cols' L' s i c'); auto using lenX', sqX'; [apply colX'; eapply Znth_In, Ec'|].
    rewrite (mask_moves i c c' s Ec Ec' B). apply (flatnonzero_members c). eapply Znth_In, Eq.
  - destruct (label_data X' cols' L' _ _ _ HL' H) as [c' [ls [q [Ec' [_ [Eq _]]]]]]. destruct (Znth_ex cols i) as [c Ec]; [rewrite <- LC; eapply Znth_Some_lt, Ec'|].
    apply (data_label X cols L (sigma s) i c); auto using sqX; [apply Lc; eapply Znth_In, Ec|].
    rewrite <- (mask_moves i c c' s Ec Ec' B). apply (flatnonzero_members c'). eapply Znth_In, Eq.
Qed.
Lemma cluster_H2 s t i l m l' m' : has_label L (sigma s) (i, l) -> has_label L (sigma t) (i, m) ->
  has_label L' s (i, l') -> has_label L' t (i, m') -> (l = m <-> l' = m').
Proof.
  intros A1 A2 A3 A4. destruct (label_data X cols L _ _ _ HL A1) as [c [ls [q1 [Ec [C1 [Q1 W1]]]]]]. destruct (label_data X cols L _ _ _ HL A2) as [c2 [ls2 [q2 [Ec2 [C2 [Q2 W2]]]]]].
  destruct (label_data X' cols' L' _ _ _ HL' A3) as [c' [ls' [r1 [Ec' [C1' [R1 V1]]]]]]. destruct (label_data X' cols' L' _ _ _ HL' A4) as [c2' [ls2' [r2 [Ec2' [C2' [R2 V2]]]]]].
  assert (c2 = c) as -> by congruence. assert (c2' = c') as -> by congruence.
  assert (UL : forall Y0 c0 a b, clusters_portion pre clusterer None Y0 c0 (flatnonzero c0) a -> clusters_portion pre clusterer None Y0 c0 (flatnonzero c0) b -> a = b).
  { intros Y0 c0 a b [Y1 [w1 [_ [P1 [U1 [E1 _]]]]]] [Y2 [w2 [_ [P2 [U2 [E2 _]]]]]]. destruct w1; [destruct U1|]. destruct w2; [destruct U2|].
    assert (Y2 = Y1) as -> by (eapply portion_unique; eassumption). congruence. }
  assert (ls2 = ls) as -> by (eapply UL; eassumption). assert (ls2' = ls') as -> by (eapply UL; eassumption).
  pose proof (same_cluster i c c' ls ls' Ec Ec' C1 C1' q1 q2 r1 r2 s t Q1 Q2 R1 R2) as K. rewrite W1, W2, V1, V2 in K.
  split; intros E; subst; [assert (F : Some l' = Some m') by now apply K|assert (F : Some l = Some m) by now apply K]; congruence.
Qed.
End Clusters.

(** ** Covers *)
Section Keep.
Context {I : Type}.
Variables (c c' : I -> list bool).
Hypotheses (HT : forall i, In true (c i) <-> In true (c' i)) (HE : forall i j, c i = c j <-> c' i = c' j).
Lemma keep_related is_ : forall seen, exists js, keep (map c seen) (map c is_) = map c js /\ keep (map c' seen) (map c' is_) = map c' js.
Proof.
  induction is_ as [|i is_ IH]; intros seen; [exists []; auto|]. cbn [map keep].
  assert (E1 : any (c i) = any (c' i)).
  { destruct (any (c i)) eqn:E; destruct (any (c' i)) eqn:E'; try reflexivity.
    - apply any_true, HT, any_true in E. congruence.
    - apply any_true, HT, any_true in E'. congruence. }
  assert (E2 : existsb (col_eqb (c i)) (map c seen) = existsb (col_eqb (c' i)) (map c' seen)).
  { apply eq_true_iff_eq. rewrite !existsb_col, !in_map_iff. split; intros [j [E Hj]]; exists j; (split; [now apply HE|assumption]). }
  rewrite <- E1, <- E2. destruct (any (c i) && negb (existsb (col_eqb (c i)) (map c seen))) eqn:B.
  all: try (destruct (any (c i)); cbn in B |- *; destruct (existsb (col_eqb (c i)) (map c seen)); cbn in B |- *; try discriminate).
  all: try (destruct (IH seen) as [js [A1 A2]]; exists js; now rewrite A1, A2).
  all: destruct (IH (i :: seen)) as [js [A1 A2]]; exists (i :: js); cbn [map] in *; now rewrite A1, A2.
Qed.
Lemma remove_related is_ : exists js, remove_empty_and_duplicate_intervals (map c is_) = map c js /\
  remove_empty_and_duplicate_intervals (map c' is_) = map c' js.
Proof. destruct (keep_related is_ []) as [js [A B]]. exists js. rewrite !remove_keep. auto. Qed.
End Keep.

Lemma extremes_same xs xs' : xs <> [] -> (forall x, In x xs <-> In x xs') -> np_min xs = np_min xs' /\ np_max xs = np_max xs'.
Proof.
  intros NE H. destruct (least_exists xs NE) as [lo Hlo]. destruct (largest_exists xs NE) as [hi Hhi].
  rewrite (np_min_spec _ _ Hlo), (np_max_spec _ _ Hhi). split; symmetry.
  - apply np_min_spec. destruct Hlo as [A B]. split; [now apply H|]. intros x Hx. apply B. now apply H.
  - apply np_max_spec. destruct Hhi as [A B]. split; [now apply H|]. intros x Hx. apply B. now apply H.
Qed.
Lemma limits_same xs xs' n ov u : xs <> [] -> (forall x, In x xs <-> In x xs') ->
  find_interval_limits xs n ov u = find_interval_limits xs' n ov u.
Proof. intros NE H. destruct (extremes_same xs xs' NE H) as [A B]. unfold find_interval_limits. now rewrite A, B. Qed.
Lemma rank_same xs xs' x : (forall x, In x xs <-> In x xs') -> dense_rank xs x = dense_rank xs' x.
Proof.
  intros H. eapply is_rank_unique; [apply dense_rank_is|]. destruct (dense_rank_is xs' x) as [l [A [B C]]]. exists l. split; [assumption|]. split; [assumption|].
  intros y. rewrite C. now rewrite H.
Qed.
Definition test (lr : fl * fl) (x : Qc) : bool := flt (fst lr) (Fin x) && flt (Fin x) (snd lr).

(** The masks of the same values in another order. *)
Lemma cover_order p st st' xs xs' : xs <> [] -> (forall x, In x xs <-> In x xs') ->
  match cover_fit_transform p st (D1 xs), cover_fit_transform p st' (D1 xs') with
  | Ok (_, cols), Ok (_, cols') => exists ts, cols = map (fun t => map t xs) ts /\ cols' = map (fun t => map t xs') ts
  | Err e, Err e' => e = e'
  | _, _ => False
  end.
Proof.
  intros NE H. assert (NE' : xs' <> []) by (intros ->; destruct xs as [|x xs]; [easy|]; apply (H x); now left).
  assert (REL : forall ts : list (Qc -> bool), exists js, remove_empty_and_duplicate_intervals (map (fun t => map t xs) ts) = map (fun t => map t xs) js /\
     remove_empty_and_duplicate_intervals (map (fun t => map t xs') ts) = map (fun t => map t xs') js).
  { intros ts. apply remove_related.
    - intros t. rewrite !in_map_iff. split; intros [x [E Hx]]; exists x; (split; [assumption|]); now apply H.
    - assert (G : forall (zs : list Qc) (t u : Qc -> bool), map t zs = map u zs <-> forall x, In x zs -> t x = u x).
      { intros zs t u. split; [|apply map_ext_in]. induction zs as [|z zs IH]; intros E x; [easy|]. cbn in E. injection E as E1 E2. intros [<-|Hx]; auto. }
      intros t u. rewrite !G. split; intros E x Hx; apply E; now apply H. }
  unfold cover_fit_transform. replace (check_array_ (D1 xs)) with (Ok (D1 xs)) by (now destruct xs). replace (check_array_ (D1 xs')) with (Ok (D1 xs')) by (now destruct xs').
  cbn [bind one_column]. destruct (validate_cover p) as [[]|e]; cbn [bind]; [|reflexivity]. destruct (kind p).
  - unfold fit_uniform. rewrite <- (limits_same xs xs') by assumption. destruct (find_interval_limits xs _ _ true) as [lims|e]; cbn [bind]; [|reflexivity].
    unfold cover_masks. destruct (REL (map test (combine (fst lims) (snd lims)))) as [js [A B]]. exists js. rewrite !map_map in A, B. split; [exact A|exact B].
  - unfold fit_transform_balanced, rankdata. 
    assert (RS : map (dense_rank xs') xs' = map (dense_rank xs) xs') by (apply map_ext; intros x; symmetry; now apply rank_same). rewrite RS.
    rewrite <- (limits_same (map qz (map (dense_rank xs) xs)) (map qz (map (dense_rank xs) xs'))).
    + destruct (find_interval_limits _ _ _ false) as [lims|e]; cbn [bind]; [|reflexivity].
      unfold cover_masks. destruct (REL (map (fun lr x => test lr (qz (dense_rank xs x))) (combine (fst lims) (snd lims)))) as [js [A B]]. exists js. rewrite !map_map in A, B.
      rewrite <- A, <- B. split; (f_equal; apply map_ext; intros lr; now rewrite !map_map).
    + now destruct xs.
    + intros q. rewrite !map_map, !in_map_iff. split; intros [x [E Hx]]; exists x; (split; [assumption|]); now apply H.
Qed.

Lemma rearranged_In {A} sigma (l l' : list A) : rearranges (zlen l) sigma -> rearranged sigma l l' -> forall x, In x l <-> In x l'.
Proof.
  intros HS [L H] x. split; intros I; apply In_Znth in I as [s [Hs E]].
  - destruct (rearranges_surj _ _ HS s Hs) as [t [Ht Et]]. subst s. rewrite <- H in E by assumption. eapply Znth_In, E.
  - rewrite L in Hs. rewrite H in E by assumption. eapply Znth_In, E.
Qed.
Lemma rearranged_map {A B} (f : A -> B) sigma l l' : rearranges (zlen l) sigma -> rearranged sigma l l' -> rearranged sigma (map f l) (map f l').
Proof.
  intros HS [L H]. split; [now rewrite !zlen_map|]. intros s Hs. rewrite zlen_map in Hs. rewrite !Znth_map. now rewrite H.
Qed.

(** ** C86: Mapper does not depend on the order of the samples *)
Theorem mapper_order_independent {A} : forall sched sched' p st st' xs xs' pre
  (clusterer : list (list A) -> option (list Z) -> res (list Z)) X X' mi store sigma st1 cols,
  valid_cover p -> zlen X = zlen xs -> rearranges (zlen xs) sigma -> rearranged sigma xs xs' -> data_rearranged pre sigma X X' ->
  order_free pre clusterer -> cover_fit_transform p st (D1 xs) = Ok (st1, cols) ->
  Permutation sched (arange (zlen cols)) -> Permutation sched' (arange (zlen cols)) ->
  exists nodes es nodes' es',
    mapper sched p st xs pre clusterer X mi store false = Ok (map Some nodes, es) /\
    mapper sched' p st' xs' pre clusterer X' mi store false = Ok (map Some nodes', es') /\
    same_graph (zlen xs) sigma nodes es nodes' es'.
Proof.
  intros sched sched' p st st' xs xs' pre clusterer X X' mi store sigma st1 cols V LX HS HR HX OF Ef P P'.
  set (n := zlen xs) in *.
  assert (NE : xs <> []) by (intros ->; destruct (cover_rejects p (D1 [])) as [_ R]; [now left|]; rewrite R in Ef; discriminate).
  pose proof (rearranged_In sigma xs xs' HS HR) as HI.
  assert (NE' : xs' <> []) by (intros ->; destruct xs as [|x xs]; [easy|]; apply (HI x); now left).
  pose proof (cover_order p st st' xs xs' NE HI) as CO. rewrite Ef in CO. destruct (cover_fit_transform p st' (D1 xs')) as [[st1' cols']|] eqn:Ef'; [|destruct CO].
  destruct CO as [ts [Ec Ec']].
  assert (LX' : zlen X' = n) by (eapply lenX'; eassumption).
  assert (L' : zlen xs' = n) by apply HR.
  assert (LC : zlen cols' = zlen cols) by (rewrite Ec, Ec', !zlen_map; reflexivity).
  assert (Hc : forall c, In c cols -> zlen c = n) by (rewrite Ec; intros c Ic; apply in_map_iff in Ic as [t [<- _]]; now rewrite zlen_map).
  assert (Hc' : forall c, In c cols' -> zlen c = n) by (rewrite Ec'; intros c Ic; apply in_map_iff in Ic as [t [<- _]]; now rewrite zlen_map).
  assert (HC : forall i c c', Znth cols i = Some c -> Znth cols' i = Some c' -> rearranged sigma c c').
  { intros i c c' E E'. rewrite Ec, Znth_map in E. rewrite Ec', Znth_map in E'. destruct (Znth ts i) as [t|]; [|discriminate].
    cbn in E, E'. injection E as <-. injection E' as <-. now apply rearranged_map. }
  assert (Hn : 0 < n) by (destruct xs; [easy|]; unfold n; rewrite zlen_cons; pose proof (zlen_nonneg xs); lia).
  assert (Cov : forall xs0 st0 s0 cols0, xs0 <> [] -> cover_fit_transform p st0 (D1 xs0) = Ok (s0, cols0) -> forall s, 0 <= s < zlen xs0 -> in_some_column cols0 s).
  { intros xs0 st0 s0 cols0 NE0 Ef0. assert (HX0 : column_of (D1 xs0) xs0) by (split; [assumption|now left]).
    pose proof (cover_fit_transform_same p st0 (D1 xs0)) as S. rewrite Ef0 in S. cbn [rmap snd] in S. destruct (cover_fit p (D1 xs0)) as [s1|] eqn:Es; [|discriminate]. cbn [bind] in S.
    assert (exists I, get_fitted_intervals s1 = Ok I) as [I EI] by (destruct s1 as [[a b]|]; [cbn; eauto|cbn in S; discriminate]).
    destruct (cover_masks_spec p (D1 xs0) xs0 s1 I (D1 xs0) xs0 V HX0 Es EI HX0) as [cols2 [E2 [_ C2]]]. assert (cols2 = cols0) as -> by congruence. exact C2. }
  assert (CL : forall X0 cols0 sch, zlen X0 = n -> (pre = true -> square X0) -> cols0 <> [] -> (forall c, In c cols0 -> zlen c = n) -> Permutation sch (arange (zlen cols0)) ->
     exists labels, parallel_clustering sch pre false clusterer None X0 true n cols0 = Ok labels /\ zlen labels = n /\
       forall q t, Znth labels q = Some t -> labels_of pre false clusterer None X0 cols0 q t).
  { intros X0 cols0 sch LX0 Sq NC Lc0 P0. apply (parallel_clustering_spec pre false clusterer None X0 sch n cols0 Hn LX0 NC P0).
    intros c Ic. split; [now apply Lc0|]. pose proof (flatnonzero_members c) as M.
    assert (R : forall q, In q (flatnonzero c) -> 0 <= q < zlen X0) by (intros q Hq; apply M in Hq; apply Znth_Some_lt in Hq; rewrite LX0; now rewrite (Lc0 c Ic) in Hq).
    destruct (portion_ex pre X0 (flatnonzero c) R) as [Y [Po LY]]; [intros E r Hr; now apply Sq|]. destruct (proj1 OF Y) as [ls [E L]].
    exists (flatnonzero c), ls, Y, None. split; [exact M|]. split; [exact Po|]. split; [exact Logic.I|]. split; [exact E|congruence]. }
  assert (NC : cols <> []) by (destruct (Cov xs st st1 cols NE Ef 0) as [c [Ic _]]; [fold n; lia|]; intros ->; destruct Ic).
  assert (NC' : cols' <> []) by (intros ->; destruct cols; [easy|]; rewrite zlen_cons in LC; pose proof (zlen_nonneg cols); change (zlen (@nil (list bool))) with 0 in LC; lia).
  assert (SQ : pre = true -> square X) by (intros E; unfold data_rearranged in HX; rewrite E in HX; apply HX).
  assert (SQ' : pre = true -> square X') by (intros E; unfold data_rearranged in HX; rewrite E in HX; apply HX).
  destruct (CL X cols sched LX SQ NC Hc P) as [L [EL [LL HL]]]. destruct (CL X' cols' sched' LX' SQ' NC' Hc' ltac:(rewrite LC; assumption)) as [L2 [EL2 [LL2 HL2]]].
  assert (RF : refined L) by (eapply refined_L; exact HL). assert (RF2 : refined L2) by (eapply refined_L; exact HL2).
  assert (NCc : forall X0 cols0 L0, zlen X0 = n -> (pre = true -> square X0) -> zlen L0 = n -> (forall c, In c cols0 -> zlen c = n) -> in_some_column cols0 0 ->
     (forall q t, Znth L0 q = Some t -> labels_of pre false clusterer None X0 cols0 q t) -> concat L0 <> []).
  { intros X0 cols0 L0 A1 A2 A3 A4 [c [Ic Ct]] A6. apply In_Znth in Ic as [i [_ Ei]].
    assert (exists l, has_label L0 0 (i, l)) as [l Hl] by (eapply data_label with (X0 := X0) (cols0 := cols0) (c := c) (pre := pre) (clusterer := clusterer); eauto using Znth_In).
    apply has_label_concat in Hl. intros E. rewrite E in Hl. destruct Hl. }
  destruct (nerve_spec L mi store (refined_NoDup _ RF)) as [nodes [es [En [N [_ He]]]]].
  { apply (NCc X cols L); auto. apply (Cov xs st st1 cols NE Ef). fold n. lia. }
  destruct (nerve_spec L2 mi store (refined_NoDup _ RF2)) as [nodes' [es' [En' [N' [_ He']]]]].
  { apply (NCc X' cols' L2); auto. apply (Cov xs' st' st1' cols' NE' Ef'). lia. }
  exists nodes, es, nodes', es'. split; [|split].
  - unfold mapper. rewrite Ef. cbn [bind snd]. fold n. rewrite EL. exact En.
  - unfold mapper. rewrite Ef'. cbn [bind snd]. rewrite L', EL2. exact En'.
  - apply (same_labels_same_graph n sigma L L2) with (mi := mi) (store := store); try assumption.
    + intros s i Bs. eapply (cluster_H1 n sigma pre clusterer X X' cols cols'); eassumption.
    + intros s t i l m l' m'. eapply (cluster_H2 n sigma pre clusterer X X' cols cols'); eassumption.
Qed.

(** ** The unit of the filter values *)
Lemma affine_increasing f : positive_affine f -> increasing_map f.
Proof.
  intros [a [b [Ha H]]] x y. rewrite !H. split; intros L.
  - qnra.
  - apply Qcnot_le_lt. intros G. apply (Qclt_not_le _ _ L). qnra.
Qed.
Lemma inc_inj f x y : increasing_map f -> f x = f y -> x = y.
Proof.
  intros H E. destruct (Qc_dec x y) as [[L|L]|L]; [| |assumption]; apply H in L; rewrite E in L; exfalso; exact (Qclt_not_eq _ _ L eq_refl).
Qed.
Lemma inc_le f x y : increasing_map f -> (x <= y)%Qc -> (f x <= f y)%Qc.
Proof. intros H L. apply Qcnot_lt_le. intros G. apply H in G. exact (Qclt_not_le _ _ G L). Qed.
Lemma inc_ltb f x y : increasing_map f -> Qcltb (f x) (f y) = Qcltb x y.
Proof. intros H. destruct (Qcltb_spec x y) as [L|L], (Qcltb_spec (f x) (f y)) as [G|G]; try reflexivity; exfalso; [apply G; now apply (proj1 (H x y))|apply L; now apply (proj2 (H x y))]. Qed.
Lemma inc_flt f x y : increasing_map f -> flt (limit_in_unit f x) (limit_in_unit f y) = flt x y.
Proof. intros H. destruct x, y; try reflexivity. cbn. now apply inc_ltb. Qed.
Lemma inc_rank f xs x : increasing_map f -> dense_rank (map f xs) (f x) = dense_rank xs x.
Proof.
  intros H. unfold dense_rank. 
  assert (E : filter (fun y => Qcltb y (f x)) (map f xs) = map f (filter (fun y => Qcltb y x) xs)).
  { induction xs as [|y xs IH]; [reflexivity|]. cbn. rewrite inc_ltb by assumption. destruct (Qcltb y x); cbn; now rewrite IH. }
  rewrite E. generalize (filter (fun y => Qcltb y x) xs) as l. clear E. induction l as [|y l IH]; [reflexivity|]. cbn [map nodup].
  destruct (in_dec Qc_eq_dec y l) as [I|I], (in_dec Qc_eq_dec (f y) (map f l)) as [J|J]; rewrite ?zlen_cons, ?IH; try reflexivity; exfalso.
  - apply J. now apply in_map.
  - apply in_map_iff in J as [z [E J]]. apply (inc_inj f) in E; [|assumption]. now subst z.
Qed.
Lemma inc_rankdata f xs : increasing_map f -> rankdata (map f xs) = rankdata xs.
Proof. intros H. unfold rankdata. rewrite map_map. apply map_ext. intros x. now apply inc_rank. Qed.
Lemma map_set_at {A B} (g : A -> B) l i v : map g (set_at l i v) = set_at (map g l) i (g v).
Proof.
  unfold set_at, mapi. generalize 0. induction l as [|x l IH]; intros k; [reflexivity|]. cbn [mapi_from map]. rewrite IH. now destruct (k =? i).
Qed.
Lemma unit_value f ranks xs r d : value_of_rank ranks (map f xs) r (limit_in_unit f d) = limit_in_unit f (value_of_rank ranks xs r d).
Proof. revert xs. induction ranks as [|k ranks IH]; intros [|x xs]; try reflexivity. cbn. now destruct (k =? r). Qed.
Definition lims_in_unit f (lims : list fl * list fl) := (map (limit_in_unit f) (fst lims), map (limit_in_unit f) (snd lims)).
Lemma unit_ranks f R xs l r : limits_from_ranks R (map f xs) l r = lims_in_unit f (limits_from_ranks R xs l r).
Proof.
  unfold limits_from_ranks, lims_in_unit. cbn [fst snd]. rewrite !map_set_at, !map_map, !zlen_map. cbn [limit_in_unit].
  f_equal; f_equal; apply map_ext; intros k; rewrite <- unit_value; reflexivity.
Qed.
Lemma unit_masks f lims ys : increasing_map f -> cover_masks (lims_in_unit f lims) (map f ys) = cover_masks lims ys.
Proof.
  intros H. unfold cover_masks, lims_in_unit. cbn [fst snd]. destruct lims as [a b]. cbn [fst snd]. revert b.
  induction a as [|x a IH]; intros [|y b]; try reflexivity. cbn [map combine]. f_equal; [|apply IH]. rewrite map_map. apply map_ext. intros z. cbn [fst snd].
  change (Fin (f z)) with (limit_in_unit f (Fin z)). now rewrite !inc_flt.
Qed.
Lemma unit_fitter p f xs : xs <> [] -> 1 <= n_intervals p -> (0 < overlap_frac p /\ overlap_frac p < 1)%Qc -> change_of_unit p f ->
  fitter p (map f xs) = rmap (lims_in_unit f) (fitter p xs).
Proof.
  intros NE Hn Hov HU. unfold change_of_unit in HU. unfold fitter. destruct (kind p).
  - destruct (least_exists xs NE) as [lo Hlo]. destruct (largest_exists xs NE) as [hi Hhi].
    pose proof (affine_increasing f HU) as HI.
    assert (Hlo' : least (f lo) (map f xs)).
    { destruct Hlo as [A B]. split; [now apply in_map|]. intros y Hy. apply in_map_iff in Hy as [x [<- Hx]]. apply inc_le; auto. }
    assert (Hhi' : largest (f hi) (map f xs)).
    { destruct Hhi as [A B]. split; [now apply in_map|]. intros y Hy. apply in_map_iff in Hy as [x [<- Hx]]. apply inc_le; auto. }
    rewrite (fit_uniform_ok p xs lo hi Hn Hov Hlo Hhi), (fit_uniform_ok p (map f xs) (f lo) (f hi) Hn Hov Hlo' Hhi').
    assert (EQ : Qceqb (f lo) (f hi) = Qceqb lo hi).
    { destruct (Qceqb_spec lo hi) as [E0|N]; destruct (Qceqb_spec (f lo) (f hi)) as [E|N']; try reflexivity; [congruence|apply (inc_inj f) in E; easy]. }
    rewrite EQ. destruct (_ && _); [reflexivity|]. cbn [rmap]. unfold lims_in_unit. cbn [fst snd]. destruct HU as [a [b [Ha HF]]].
    assert (AA : forall i, aa (n_intervals p) (overlap_frac p) (f lo) (f hi) i = f (aa (n_intervals p) (overlap_frac p) lo hi i) /\
       bb (n_intervals p) (overlap_frac p) (f lo) (f hi) i = f (bb (n_intervals p) (overlap_frac p) lo hi i)).
    { intros i. unfold bb, aa, ilen, Qcdiv. rewrite !HF. split; ring. }
    do 2 f_equal; unfold tabZ; rewrite map_map; apply map_ext; intros i; destruct (_ =? _); try reflexivity; cbn; f_equal; apply AA.
  - unfold fit_balanced. rewrite inc_rankdata by assumption. destruct (find_interval_limits _ _ _ _) as [[l r]|e]; [|reflexivity]. cbn [bind rmap]. now rewrite unit_ranks.
Qed.

(** ** C86: the covers do not depend on the unit *)
Theorem cover_units : forall p f xs, change_of_unit p f ->
  (forall st, rmap snd (cover_fit_transform p st (D1 (map f xs))) = rmap snd (cover_fit_transform p st (D1 xs))) /\
  match cover_fit p (D1 xs), cover_fit p (D1 (map f xs)) with
  | Ok st, Ok st' =>
      (forall ys, cover_transform p st' (D1 (map f ys)) = cover_transform p st (D1 ys)) /\
      exists I, get_fitted_intervals st = Ok I /\
        get_fitted_intervals st' = Ok (map (fun lr => (limit_in_unit f (fst lr), limit_in_unit f (snd lr))) I)
  | Err e, Err e' => e = e'
  | _, _ => False
  end.
Proof.
  intros p f xs HU. assert (HI : increasing_map f) by (unfold change_of_unit in HU; destruct (kind p); [now apply affine_increasing|assumption]).
  assert (G : match cover_fit p (D1 xs), cover_fit p (D1 (map f xs)) with
  | Ok st, Ok st' => exists lims, st = Some lims /\ st' = Some (lims_in_unit f lims)
  | Err e, Err e' => e = e' | _, _ => False end).
  { unfold cover_fit. destruct xs as [|x xs]; [reflexivity|]. cbn [check_array_ map bind]. change (f x :: map f xs) with (map f (x :: xs)).
    destruct (validate_ok p) as [[e ->]|[-> [Hn Hov]]]; [reflexivity|]. cbn [bind one_column]. fold (fitter p).
    rewrite (unit_fitter p f (x :: xs)) by easy. destruct (fitter p (x :: xs)) as [lims|e]; cbn [bind rmap]; [|reflexivity]. eauto. }
  assert (T : forall lims ys, cover_transform p (Some (lims_in_unit f lims)) (D1 (map f ys)) = cover_transform p (Some lims) (D1 ys)).
  { intros lims ys. unfold cover_transform. destruct ys as [|y ys]; [reflexivity|]. cbn [check_array_ map bind one_column].
    change (f y :: map f ys) with (map f (y :: ys)). now rewrite unit_masks. }
  split.
  - intros st. rewrite !cover_fit_transform_same. destruct (cover_fit p (D1 xs)), (cover_fit p (D1 (map f xs))); try destruct G; [|reflexivity].
    destruct H as [-> ->]. cbn [bind]. apply T.
  - destruct (cover_fit p (D1 xs)), (cover_fit p (D1 (map f xs))); try destruct G; [|reflexivity]. destruct H as [-> ->]. split; [apply T|].
    destruct x as [l r]. exists (combine l r). split; [reflexivity|]. unfold lims_in_unit. cbn. f_equal. clear.
    revert r. induction l as [|x l IH]; intros [|y r]; try reflexivity. cbn. f_equal. apply IH.
Qed.
Theorem mapper_units {A} : forall f sched p st xs pre (clusterer : list (list A) -> option (list Z) -> res (list Z)) X mi store contract,
  change_of_unit p f ->
  mapper sched p st (map f xs) pre clusterer X mi store contract = mapper sched p st xs pre clusterer X mi store contract.
Proof.
  intros f sched p st xs pre clusterer X mi store contract HU. destruct (cover_units p f xs HU) as [C _]. specialize (C st). unfold mapper. rewrite zlen_map.
  destruct (cover_fit_transform p st (D1 xs)) as [[s c]|], (cover_fit_transform p st (D1 (map f xs))) as [[s' c']|]; cbn [rmap snd] in C; try discriminate.
  - injection C as ->. reflexivity.
  - injection C as ->. reflexivity.
Qed.

(** ** CubicalCover: a unit for each column *)
Lemma units_column f rows i c : (forall r, In r rows -> zlen r = c) -> 0 <= i < c -> column (in_units f rows) i = map (f i) (column rows i).
Proof.
  intros L Hi. unfold column, in_units. rewrite !map_map. apply map_ext_in. intros r Hr. rewrite Znth_mapi.
  destruct (Znth_ex r i) as [x E]; [now rewrite (L r Hr)|]. now rewrite E.
Qed.
Theorem cubical_cover_units : forall p f c rows, (forall r, In r rows -> zlen r = c) -> (forall i, 0 <= i < c -> change_of_unit p (f i)) ->
  rmap snd (cubical_fit_transform p (D2 c (in_units f rows))) = rmap snd (cubical_fit_transform p (D2 c rows)).
Proof.
  intros p f c rows L HU. unfold cubical_fit_transform.
  destruct rows as [|r0 rows0] eqn:ER; [reflexivity|]. rewrite <- ER in *. assert (NE : rows <> []) by now rewrite ER.
  replace (check_array_ (D2 c (in_units f rows))) with (if c <? 1 then Err ValueError else Ok (D2 c (in_units f rows))) by (now rewrite ER).
  replace (check_array_ (D2 c rows)) with (if c <? 1 then Err ValueError else Ok (D2 c rows)) by (now rewrite ER).
  destruct (c <? 1) eqn:Ec; [reflexivity|]. cbn [bind]. destruct (validate_ok p) as [[e ->]|[-> [Hn Hov]]]; [reflexivity|]. cbn [bind as_rows].
  assert (NC : forall i, column rows i <> []) by (intros i; unfold column; rewrite ER; easy).
  assert (LN : zlen (in_units f rows) = zlen rows) by apply zlen_map.
  destruct (kind p) eqn:K.
  - unfold cubical_fit_. rewrite K. 
    assert (F : forall i, 0 <= i < c -> fit_uniform p (column (in_units f rows) i) = rmap (lims_in_unit (f i)) (fit_uniform p (column rows i))).
    { intros i Hi. rewrite (units_column f rows i c L Hi). pose proof (unit_fitter p (f i) (column rows i) (NC i) Hn Hov (HU i Hi)) as G. unfold fitter in G. now rewrite K in G. }
    assert (G : forall m k, 0 <= k -> k + Z.of_nat m <= c -> let is_ := map (fun j => k + Z.of_nat j) (seq 0 m) in
       match mapM (fun i => do lims <- fit_uniform p (column (in_units f rows) i); Ok (Some lims)) is_,
             mapM (fun i => do lims <- fit_uniform p (column rows i); Ok (Some lims)) is_ with
       | Ok cs', Ok cs => mapM (fun ic => match snd ic with Some lims => Ok (cover_masks lims (column (in_units f rows) (fst ic))) | None => Err AttributeError end) (mapi_from k (fun i st => (i, st)) cs') =
                          mapM (fun ic => match snd ic with Some lims => Ok (cover_masks lims (column rows (fst ic))) | None => Err AttributeError end) (mapi_from k (fun i st => (i, st)) cs)
       | Err e, Err e' => e = e' | _, _ => False end).
    { induction m as [|m IH]; intros k Hk Hm; cbv zeta; [reflexivity|]. cbn [seq map]. rewrite <- seq_shift, map_map.
      specialize (IH (k + 1) ltac:(lia) ltac:(lia)). cbv zeta in IH.
      replace (map (fun x => k + Z.of_nat (S x)) (seq 0 m)) with (map (fun j => k + 1 + Z.of_nat j) (seq 0 m)) by (apply map_ext; intros; lia).
      cbn [mapM]. replace (k + Z.of_nat 0) with k by lia. rewrite F by lia. destruct (fit_uniform p (column rows k)) as [lims|e]; cbn [rmap bind]; [|reflexivity].
      destruct (mapM _ (map _ (seq 0 m))) as [cs'|e']; destruct (mapM (fun i => do lims <- fit_uniform p (column rows i); Ok (Some lims)) _) as [cs|e]; cbn [bind]; try contradiction; [|assumption].
      cbn [mapi_from mapM snd fst]. rewrite (units_column f rows k c L) by lia. rewrite unit_masks.
      - cbn [bind]. now rewrite IH.
      - specialize (HU k ltac:(lia)). unfold change_of_unit in HU. rewrite K in HU. now apply affine_increasing. }
    specialize (G (Z.to_nat c) 0 ltac:(lia) ltac:(lia)). cbv zeta in G.
    assert (AR : map (fun j => 0 + Z.of_nat j) (seq 0 (Z.to_nat c)) = arange c) by (unfold arange, tabZ; apply map_ext; intros; lia). rewrite AR in G.
    destruct (mapM _ (arange c)) as [cs'|e']; destruct (mapM (fun i => do lims <- fit_uniform p (column rows i); Ok (Some lims)) (arange c)) as [cs|e]; cbn [bind]; try contradiction; [|now rewrite G].
    cbn [fst]. unfold cubical_transform_, mapi. unfold cover_state. rewrite LN, G. clear G. destruct (mapM _ _); reflexivity.
  - replace (mapM (fun i => fit_transform_balanced p (column (in_units f rows) i)) (arange c)) with (mapM (fun i => fit_transform_balanced p (column rows i)) (arange c)).
    + destruct (mapM _ _); cbn [bind rmap snd]; [now rewrite LN|reflexivity].
    + assert (E : forall is_, (forall i, In i is_ -> 0 <= i < c) -> mapM (fun i => fit_transform_balanced p (column rows i)) is_ = mapM (fun i => fit_transform_balanced p (column (in_units f rows) i)) is_).
      { induction is_ as [|i is_ IH]; intros H; [reflexivity|]. cbn [mapM]. rewrite IH by (intros; apply H; now right).
        assert (Hi : 0 <= i < c) by (apply H; now left).
        replace (fit_transform_balanced p (column (in_units f rows) i)) with (fit_transform_balanced p (column rows i)); [reflexivity|].
        rewrite (units_column f rows i c L Hi). unfold fit_transform_balanced. rewrite inc_rankdata; [reflexivity|]. specialize (HU i Hi). unfold change_of_unit in HU. now rewrite K in HU. }
      apply E. intros i Hi. now apply In_arange in Hi.
Qed.

(** ** Refuted: contract_nodes, and other changes of unit *)
(** With contract_nodes=True the graph depends on the order of the samples: after a
    rearrangement a sample that was in no vertex is in one. *)
Definition one_cluster (Y : list (list Z)) (_ : option (list Z)) : res (list Z) := Ok (map (fun _ => 0) Y).
Lemma one_cluster_order_free : order_free false one_cluster.
Proof.
  split; [intros Y; eexists; split; [reflexivity|apply zlen_map]|]. intros sigma Y Y' ls ls' HS [LY _] E E' s t Hs Ht.
  injection E as <-. injection E' as <-. pose proof (proj1 HS s Hs) as Bs. pose proof (proj1 HS t Ht) as Bt.
  assert (G : forall (Z0 : list (list Z)) i, 0 <= i < zlen Z0 -> Znth (map (fun _ => 0) Z0) i = Some 0).
  { intros Z0 i Hi. rewrite Znth_map. destruct (Znth_ex Z0 i Hi) as [x ->]. reflexivity. }
  rewrite !G by lia. easy.
Qed.
Definition swap01 (s : Z) : Z := if s =? 0 then 1 else if s =? 1 then 0 else s.
Lemma swap01_rearranges n : 2 <= n -> rearranges n swap01.
Proof.
  intros Hn. unfold rearranges, swap01. split.
  - intros s Hs. destruct (Z.eqb_spec s 0), (Z.eqb_spec s 1); lia.
  - intros s t Hs Ht. destruct (Z.eqb_spec s 0), (Z.eqb_spec s 1), (Z.eqb_spec t 0), (Z.eqb_spec t 1); lia.
Qed.
Definition three : cover_params := CParams Uniform 3 (Q2Qc (1 # 2)).
Lemma swap01_rearranged {A} (x y : A) l : rearranged swap01 (x :: y :: l) (y :: x :: l).
Proof.
  split; [now rewrite !zlen_cons|]. intros s Hs. unfold swap01. destruct (Z.eqb_spec s 0) as [->|N0]; [reflexivity|].
  destruct (Z.eqb_spec s 1) as [->|N1]; [reflexivity|]. assert (G : forall u v : A, Znth (u :: v :: l) s = Znth l (s - 2)) by (intros u v; unfold Znth; replace (s <? 0) with false by lia; replace (s - 2 <? 0) with false by lia; replace (Z.to_nat s) with (S (S (Z.to_nat (s - 2)))) by lia; reflexivity). now rewrite !G.
Qed.
Theorem mapper_order_contract_refuted : exists sched p st xs xs' X X' sigma st1 cols vs es vs' es',
  valid_cover p /\ zlen X = zlen xs /\ rearranges (zlen xs) sigma /\ rearranged sigma xs xs' /\ data_rearranged false sigma X X' /\
  cover_fit_transform p st (D1 xs) = Ok (st1, cols) /\ Permutation sched (arange (zlen cols)) /\
  mapper sched p st xs false one_cluster X 1 true true = Ok (vs, es) /\
  mapper sched p st xs' false one_cluster X' 1 true true = Ok (vs', es') /\
  exists s, 0 <= s < zlen xs /\ (exists k l, In (Some (k, l)) vs' /\ In s l) /\ ~ exists k l, In (Some (k, l)) vs /\ In (sigma s) l.
Proof.
  exists [0; 1; 2], three, None, [qz 5; qz 8; qz 0], [qz 8; qz 5; qz 0], [[5]; [8]; [0]], [[8]; [5]; [0]], swap01.
  eexists _, _, _, _, _, _. split; [split; [cbn; lia|split; reflexivity]|]. split; [reflexivity|]. split; [now apply swap01_rearranges|].
  split; [apply swap01_rearranged|]. split; [apply (swap01_rearranged [5] [8] [[0]])|]. split; [vm_compute; reflexivity|]. split; [reflexivity|]. split; [vm_compute; reflexivity|].
  split; [vm_compute; reflexivity|]. exists 0. split; [cbn; lia|]. split.
  - eexists _, _. split; [left; reflexivity|]. now left.
  - intros [k [l [H1 H2]]]. cbn in H1. unfold swap01 in H2. cbn in H2. repeat (destruct H1 as [H1|H1]; [try discriminate; injection H1 as <- <-; cbn in H2; lia|]). exact H1.
Qed.
(** A uniform cover is not invariant under increasing maps that are not affine. *)
Definition stretch (x : Qc) : Qc := if Qcleb x 1 then x else (x + x - 1)%Qc.
Theorem uniform_cover_increasing_refuted : exists f p xs, increasing_map f /\ valid_cover p /\ kind p = Uniform /\
  rmap snd (cover_fit_transform p None (D1 (map f xs))) <> rmap snd (cover_fit_transform p None (D1 xs)).
Proof.
  exists stretch, (CParams Uniform 2 (Q2Qc (1 # 2))), [qz 0; qz 1; qz 2]. split; [|split; [split; [cbn; lia|split; reflexivity]|split; [reflexivity|vm_compute; discriminate]]].
  intros x y. unfold stretch. destruct (Qcleb_spec x 1) as [A|A], (Qcleb_spec y 1) as [B|B]; try apply Qcnot_le_lt in A; try apply Qcnot_le_lt in B; split; intros L; qlra.
Qed.

(** ** The hypotheses are met *)
(** A clusterer that is not constant: rows are grouped by the parity of their entry. *)
Definition by_parity (Y : list (list Z)) (_ : option (list Z)) : res (list Z) := Ok (map (fun r => hd 0 r mod 2) Y).
Lemma by_parity_order_free : order_free false by_parity.
Proof.
  split; [intros Y; eexists; split; [reflexivity|apply zlen_map]|]. intros sigma Y Y' ls ls' HS [LY HY] E E' s t Hs Ht.
  injection E as <-. injection E' as <-. rewrite !Znth_map, !HY by assumption. reflexivity.
Qed.
(** A clusterer of distance matrices: the samples at distance 1 from some sample, and the others. *)
Definition by_neighbours (Y : list (list Z)) (_ : option (list Z)) : res (list Z) :=
  Ok (map (fun r => if existsb (Z.eqb 1) r then 1 else 0) Y).
Lemma by_neighbours_order_free : order_free true by_neighbours.
Proof.
  split; [intros Y; eexists; split; [reflexivity|apply zlen_map]|]. intros sigma Y Y' ls ls' HS [SY [SY' [LY HY]]] E E' s t Hs Ht.
  injection E as <-. injection E' as <-. rewrite !Znth_map.
  assert (G : forall i, 0 <= i < zlen Y -> option_map (fun r => if existsb (Z.eqb 1) r then 1 else 0) (Znth Y' i) =
    option_map (fun r => if existsb (Z.eqb 1) r then 1 else 0) (Znth Y (sigma i))); [|now rewrite !G].
  intros i Hi. destruct (Znth_ex Y' i) as [r' Er']; [lia|]. destruct (Znth_ex Y (sigma i)) as [r Er]; [now apply HS|]. rewrite Er, Er'. cbn. f_equal.
  assert (Lr : zlen r = zlen Y) by (apply SY; eapply Znth_In, Er).
  assert (R : rearranged sigma r r').
  { split; [rewrite Lr, (SY' r' (Znth_In _ _ _ Er')); exact LY|]. intros u Hu. rewrite Lr in Hu. exact (HY i u r r' Hu Er' Er). }
  assert (I : In 1 r <-> In 1 r') by (apply (rearranged_In sigma); [now rewrite Lr|assumption]).
  assert (X : forall l, existsb (Z.eqb 1) l = true <-> In 1 l) by (intros l; rewrite existsb_exists; split; [intros [z [Hz E]]; apply Z.eqb_eq in E; now subst|intros Hz; exists 1; auto]).
  destruct (existsb (Z.eqb 1) r) eqn:E1, (existsb (Z.eqb 1) r') eqn:E2; try reflexivity; exfalso;
    [apply X in E1; apply I, X in E1; congruence|apply X in E2; apply I, X in E2; congruence].
Qed.
Example order_ex :
  let xs := [qz 5; qz 8; qz 0; qz 4; qz 3] in let X := [[5]; [8]; [0]; [4]; [3]] in
  mapper [2; 0; 1] three None xs false by_parity X 1 true false =
    Ok ([Some ((1, 1), [0; 4]); Some ((2, 1), [0]); Some ((2, 0), [1]); Some ((0, 0), [2]); Some ((1, 0), [3]); Some ((0, 1), [4])],
        [Edge 0 1 1 (Some [0]); Edge 0 5 1 (Some [4])]) /\
  mapper [0; 1; 2] three None (qz 8 :: qz 5 :: skipn 2 xs) false by_parity ([8] :: [5] :: skipn 2 X) 1 true false =
    Ok ([Some ((2, 0), [0]); Some ((1, 1), [1; 4]); Some ((2, 1), [1]); Some ((0, 0), [2]); Some ((1, 0), [3]); Some ((0, 1), [4])],
        [Edge 1 2 1 (Some [1]); Edge 1 5 1 (Some [4])]).
Proof. split; vm_compute; reflexivity. Qed.
Example order_hyps : valid_cover three /\ rearranges 5 swap01 /\
  rearranged swap01 [qz 5; qz 8; qz 0; qz 4; qz 3] [qz 8; qz 5; qz 0; qz 4; qz 3] /\
  data_rearranged false swap01 [[5]; [8]; [0]; [4]; [3]] [[8]; [5]; [0]; [4]; [3]].
Proof.
  split; [split; [cbn; lia|split; reflexivity]|]. split; [now apply swap01_rearranges|]. split; [apply swap01_rearranged|].
  apply (swap01_rearranged [5] [8] [[0]; [4]; [3]]).
Qed.
Example affine_ex : change_of_unit three (fun x => (qz 2 * x + qz 3)%Qc).
Proof. exists (qz 2), (qz 3). split; [reflexivity|]. reflexivity. Qed.
Example increasing_ex : change_of_unit (CParams Balanced 3 (Q2Qc (1 # 2))) stretch.
Proof.
  intros x y. unfold stretch. destruct (Qcleb_spec x 1) as [A|A], (Qcleb_spec y 1) as [B|B]; try apply Qcnot_le_lt in A; try apply Qcnot_le_lt in B; split; intros L; qlra.
Qed.
Print Assumptions mapper_order_independent.
Print Assumptions cover_units.
Print Assumptions mapper_units.
Print Assumptions cubical_cover_units.
Print Assumptions mapper_order_contract_refuted.
Print Assumptions uniform_cover_increasing_refuted.
