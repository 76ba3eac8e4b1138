(** Property C76, lemmas: merge trees and their cuts. *)
From Coq Require Import Sorting.Permutation.
From Verif Require Import Np NpFacts Fl FlFacts KnnThms CutModel CutSpec.
Open Scope Z_scope.

Lemma flat_in (l : list (Z * Z)) i a b : Znth l i = Some (a, b) -> In a (flat_map (fun c => [fst c; snd c]) l) /\ In b (flat_map (fun c => [fst c; snd c]) l).
Proof.
  intros E. apply Znth_In in E. split; apply in_flat_map; exists (a, b); cbn; auto.
Qed.
Lemma flat_unique (l : list (Z * Z)) : NoDup (flat_map (fun c => [fst c; snd c]) l) ->
  forall i j a b c d v, Znth l i = Some (a, b) -> Znth l j = Some (c, d) -> (v = a \/ v = b) -> (v = c \/ v = d) -> i = j.
Proof.
  induction l as [|[p q] l IH]; intros N i j a b c d v Ei Ej Hi Hj.
  - apply Znth_Some_lt in Ei. change (zlen (@nil (Z * Z))) with 0 in Ei. lia.
  - cbn in N. apply NoDup_cons_iff in N. destruct N as [N1 N]. apply NoDup_cons_iff in N. destruct N as [N2 N].
    cbn in N1. pose proof (Znth_Some_lt _ _ _ Ei) as Bi. pose proof (Znth_Some_lt _ _ _ Ej) as Bj.
    destruct (Z.eq_dec i 0) as [Zi|Zi]; destruct (Z.eq_dec j 0) as [Zj|Zj].
    + lia.
    + subst i. rewrite Znth_0 in Ei. injection Ei as -> ->. rewrite Znth_cons in Ej by lia. apply flat_in in Ej.
      destruct Hi as [-> | ->]; destruct Hj as [-> | ->]; tauto.
    + subst j. rewrite Znth_0 in Ej. injection Ej as -> ->. rewrite Znth_cons in Ei by lia. apply flat_in in Ei.
      destruct Hi as [-> | ->]; destruct Hj as [-> | ->]; tauto.
    + rewrite Znth_cons in Ei by lia. rewrite Znth_cons in Ej by lia.
      enough (i - 1 = j - 1) by lia. eapply IH; eauto.
Qed.
Lemma flat_distinct (l : list (Z * Z)) : NoDup (flat_map (fun c => [fst c; snd c]) l) ->
  forall i a b, Znth l i = Some (a, b) -> a <> b.
Proof.
  induction l as [|[p q] l IH]; intros N i a b Ei.
  - apply Znth_Some_lt in Ei. change (zlen (@nil (Z * Z))) with 0 in Ei. lia.
  - cbn in N. apply NoDup_cons_iff in N. destruct N as [N1 N]. apply NoDup_cons_iff in N. destruct N as [N2 N].
    pose proof (Znth_Some_lt _ _ _ Ei) as Bi. destruct (Z.eq_dec i 0) as [->|].
    + rewrite Znth_0 in Ei. injection Ei as -> ->. intros ->. apply N1. now left.
    + rewrite Znth_cons in Ei by lia. eauto.
Qed.
Lemma flat_zlen (l : list (Z * Z)) : zlen (flat_map (fun c => [fst c; snd c]) l) = 2 * zlen l.
Proof. induction l as [|p l IH]; [reflexivity|]. cbn [flat_map]. rewrite zlen_app, IH, (zlen_cons p l). change (zlen [fst p; snd p]) with 2. lia. Qed.

Section Tree.
Variable n : Z.
Variable children : list (Z * Z).
Hypothesis Tr : merge_tree n children.
Notation bel := (below n children).
Definition active (m v : Z) : Prop :=
  0 <= v < n + m /\ forall j a b, 0 <= j < m -> Znth children j = Some (a, b) -> v <> a /\ v <> b.

Lemma merge_at m : 0 <= m < n - 1 -> exists a b, Znth children m = Some (a, b) /\ 0 <= a < n + m /\ 0 <= b < n + m /\ a <> b.
Proof.
  destruct Tr as [L [B N]]. intros H. destruct (Znth_ex children m) as [[a b] E]; [lia|].
  exists a, b. split; [exact E|]. destruct (B _ _ _ E). split; [assumption|]. split; [assumption|]. eapply flat_distinct; eauto.
Qed.
Lemma merge_unique i j a b c d v : Znth children i = Some (a, b) -> Znth children j = Some (c, d) -> (v = a \/ v = b) -> (v = c \/ v = d) -> i = j.
Proof. destruct Tr as [L [B N]]. now apply flat_unique. Qed.
Lemma merge_range i a b : Znth children i = Some (a, b) -> 0 <= i < n - 1 /\ 0 <= a < n + i /\ 0 <= b < n + i.
Proof. destruct Tr as [L [B N]]. intros E. pose proof (Znth_Some_lt _ _ _ E). destruct (B _ _ _ E). lia. Qed.

Lemma active_step m a b : Znth children m = Some (a, b) -> forall v, active (m + 1) v <-> v = n + m \/ (active m v /\ v <> a /\ v <> b).
Proof.
  intros E v. destruct (merge_range _ _ _ E) as [Bm [Ba Bb]]. split.
  - intros [R H]. destruct (Z.eq_dec v (n + m)); [now left|]. right. split; [|apply (H m); [lia|exact E]].
    split; [lia|]. intros j c d Hj Ej. apply (H j); [lia|exact Ej].
  - intros [->|[[R H] [Na Nb]]].
    + split; [lia|]. intros j c d Hj Ej. apply merge_range in Ej. lia.
    + split; [lia|]. intros j c d Hj Ej. destruct (Z.eq_dec j m) as [->|]; [rewrite E in Ej; injection Ej as <- <-; auto|].
      apply (H j); [lia|exact Ej].
Qed.
Lemma active_children m a b : Znth children m = Some (a, b) -> active m a /\ active m b.
Proof.
  intros E. destruct (merge_range _ _ _ E) as [Bm [Ba Bb]].
  split; (split; [lia|]); intros j c d Hj Ej; split; intros V.
  - pose proof (merge_unique j m c d a b a Ej E ltac:(auto) ltac:(auto)). lia.
  - pose proof (merge_unique j m c d a b a Ej E ltac:(auto) ltac:(auto)). lia.
  - pose proof (merge_unique j m c d a b b Ej E ltac:(auto) ltac:(auto)). lia.
  - pose proof (merge_unique j m c d a b b Ej E ltac:(auto) ltac:(auto)). lia.
Qed.
Lemma below_range v x : bel v x -> 0 <= x < n /\ 0 <= v < 2 * n - 1.
Proof. induction 1; try (apply merge_range in H); lia. Qed.
Lemma below_small v x : bel v x -> v < n -> v = x.
Proof. induction 1; intros; [reflexivity| |]; apply merge_range in H; lia. Qed.
Lemma below_inv m a b x : Znth children m = Some (a, b) -> bel (n + m) x -> bel a x \/ bel b x.
Proof.
  intros E B. inversion B; subst.
  - apply merge_range in E. lia.
  - assert (i = m) by lia. subst i. rewrite E in *. left. congruence.
  - assert (i = m) by lia. subst i. rewrite E in *. right. congruence.
Qed.

Lemma active_cover m : 0 <= m <= n - 1 -> forall x, 0 <= x < n -> exists v, active m v /\ bel v x.
Proof.
  intros [H0 H1]. revert H1. pattern m. apply natlike_ind; [| |exact H0].
  - intros _ x Hx. exists x. split; [|now constructor]. split; [lia|]. intros; lia.
  - intros k Hk IH H1 x Hx. destruct (IH ltac:(lia) x Hx) as [v [A B]]. destruct (merge_at k) as [a [b [E _]]]; [lia|].
    change (Z.succ k) with (k + 1).
    destruct (Z.eq_dec v a) as [->|Na]; [|destruct (Z.eq_dec v b) as [->|Nb]].
    + exists (n + k). split; [apply (active_step _ _ _ E); now left|eapply below_left; eauto].
    + exists (n + k). split; [apply (active_step _ _ _ E); now left|eapply below_right; eauto].
    + exists v. split; [apply (active_step _ _ _ E); now right|assumption].
Qed.
Lemma active_disjoint m : 0 <= m <= n - 1 -> forall u v x, active m u -> active m v -> bel u x -> bel v x -> u = v.
Proof.
  intros [H0 H1]. revert H1. pattern m. apply natlike_ind; [| |exact H0].
  - intros _ u v x [Ru _] [Rv _] Bu Bv. apply below_small in Bu; [|lia]. apply below_small in Bv; [|lia]. congruence.
  - intros k Hk IH H1 u v x Au Av Bu Bv. destruct (merge_at k) as [a [b [E _]]]; [lia|].
    change (Z.succ k) with (k + 1) in *. destruct (active_children _ _ _ E) as [Aa Ab].
    apply (active_step _ _ _ E) in Au. apply (active_step _ _ _ E) in Av. assert (K : k <= n - 1) by lia.
    destruct Au as [->|[Au [Nua Nub]]]; destruct Av as [->|[Av [Nva Nvb]]].
    + reflexivity.
    + destruct (below_inv _ _ _ _ E Bu) as [B|B]; exfalso; [apply Nva|apply Nvb]; apply (IH K _ _ x); assumption.
    + destruct (below_inv _ _ _ _ E Bv) as [B|B]; exfalso; [apply Nua|apply Nub]; apply (IH K _ _ x); assumption.
    + apply (IH K _ _ x); assumption.
Qed.
Lemma active_contains m : 0 <= m <= n - 1 -> forall v u x, v < n + m -> bel v x -> active m u -> bel u x -> forall z, bel v z -> bel u z.
Proof.
  intros [H0 H1]. revert H1. pattern m. apply natlike_ind; [| |exact H0].
  - intros _ v u x Hv Bv [Ru _] Bu z Bz. apply below_small in Bv; [|lia]. apply below_small in Bu; [|lia]. congruence.
  - intros k Hk IH H1 v u x Hv Bv Au Bu z Bz. destruct (merge_at k) as [a [b [E _]]]; [lia|].
    change (Z.succ k) with (k + 1) in *. assert (D := active_disjoint (k + 1) ltac:(lia)).
    assert (Atop : active (k + 1) (n + k)) by (apply (active_step _ _ _ E); now left).
    destruct (Z.eq_dec v (n + k)) as [->|Nv]; [now rewrite (D u (n + k) x)|].
    destruct (below_range _ _ Bv) as [Rx _]. destruct (active_cover k ltac:(lia) x Rx) as [w [Aw Bw]].
    pose proof (IH ltac:(lia) v w x ltac:(lia) Bv Aw Bw z Bz) as Wz.
    destruct (Z.eq_dec w a) as [->|Na]; [|destruct (Z.eq_dec w b) as [->|Nb]].
    + rewrite (D u (n + k) x); try assumption; eapply below_left; eauto.
    + rewrite (D u (n + k) x); try assumption; eapply below_right; eauto.
    + rewrite (D u w x); try assumption. apply (active_step _ _ _ E). now right.
Qed.
Lemma joined_active m x y : 0 <= m <= n - 1 -> (joined n children m x y <-> exists v, active m v /\ bel v x /\ bel v y).
Proof.
  intros H. split.
  - intros [v [Hv [Bx By]]]. destruct (below_range _ _ Bx) as [Rx _]. destruct (active_cover m H x Rx) as [u [Au Bu]].
    exists u. split; [assumption|]. split; [assumption|]. exact (active_contains m H v u x Hv Bx Au Bu y By).
  - intros [v [[Rv _] [Bx By]]]. exists v. split; [lia|]. auto.
Qed.
Lemma joined_dec m x y : 0 <= m <= n - 1 -> 0 <= x < n -> 0 <= y < n -> joined n children m x y \/ ~ joined n children m x y.
Proof.
  intros H Hx Hy. destruct (active_cover m H x Hx) as [u [Au Bu]]. destruct (active_cover m H y Hy) as [w [Aw Bw]].
  destruct (Z.eq_dec u w) as [->|N].
  - left. apply joined_active; [assumption|]. eauto.
  - right. intros J. apply joined_active in J; [|assumption]. destruct J as [v [Av [Bx By]]]. apply N.
    rewrite (active_disjoint m H u v x), (active_disjoint m H w v y) by assumption. reflexivity.
Qed.
Lemma joined_trans m x y z : 0 <= m <= n - 1 -> joined n children m x y -> joined n children m y z -> joined n children m x z.
Proof.
  intros H J1 J2. apply joined_active in J1; [|assumption]. apply joined_active in J2; [|assumption]. apply joined_active; [assumption|].
  destruct J1 as [u [Au [B1 B2]]]. destruct J2 as [v [Av [B3 B4]]]. assert (u = v) as -> by (apply (active_disjoint m H u v y); assumption). eauto.
Qed.
Lemma joined_refl m x : 0 <= m -> 0 <= x < n -> joined n children m x x.
Proof. intros H Hx. exists x. split; [lia|]. split; now constructor. Qed.
Lemma joined_sym m x y : joined n children m x y -> joined n children m y x.
Proof. intros [v [H [A B]]]. exists v. auto. Qed.

(** The root *)
Lemma all_merged v : 2 <= n -> 0 <= v < 2 * n - 2 -> exists i a b, Znth children i = Some (a, b) /\ (v = a \/ v = b).
Proof.
  intros Hn Hv. destruct Tr as [L [B N]]. set (fl := flat_map _ children) in *.
  assert (I : incl fl (arange (2 * n - 2))).
  { intros w W. apply In_arange. unfold fl in W. apply in_flat_map in W. destruct W as [[a b] [W1 W2]].
    apply In_Znth in W1. destruct W1 as [i [_ E]]. destruct (merge_range _ _ _ E). cbn in W2. destruct W2 as [<-|[<-|[]]]; lia. }
  assert (I' : incl (arange (2 * n - 2)) fl).
  { apply NoDup_length_incl; [exact N| |exact I].
    pose proof (flat_zlen children) as Z1. fold fl in Z1. pose proof (zlen_arange (2 * n - 2) ltac:(lia)) as Z2. unfold zlen in *. lia. }
  specialize (I' v). unfold fl in I'. rewrite In_arange, in_flat_map in I'. destruct (I' Hv) as [[a b] [W1 W2]].
  apply In_Znth in W1. destruct W1 as [i [_ E]]. exists i, a, b. cbn in W2. split; [exact E|]. destruct W2 as [<-|[<-|[]]]; auto.
Qed.
Lemma last_merge a b : 2 <= n -> Znth children (n - 2) = Some (a, b) -> Z.max a b = 2 * n - 3.
Proof.
  intros Hn E. destruct (merge_range _ _ _ E) as [_ [Ba Bb]].
  destruct (all_merged (2 * n - 3) Hn ltac:(lia)) as [i [c [d [Ei Hv]]]]. destruct (merge_range _ _ _ Ei) as [Ri [Bc Bd]].
  assert (i = n - 2) by lia. subst i. rewrite E in Ei. injection Ei as <- <-. lia.
Qed.
Lemma active_root : 2 <= n -> forall v, active (n - 1) v <-> v = 2 * n - 2.
Proof.
  intros Hn v. split.
  - intros [R H]. destruct (Z.eq_dec v (2 * n - 2)); [assumption|]. exfalso.
    destruct (all_merged v Hn ltac:(lia)) as [i [a [b [E Hv]]]]. destruct (merge_range _ _ _ E) as [Ri _].
    destruct (H i a b Ri E). tauto.
  - intros ->. destruct (merge_at (n - 2)) as [a [b [E _]]]; [lia|]. replace (n - 1) with (n - 2 + 1) by lia.
    apply (active_step _ _ _ E). left. lia.
Qed.
Lemma below_ex v : 0 <= v < 2 * n - 1 -> exists x, bel v x.
Proof.
  intros H. assert (G : forall k, 0 <= k -> forall v, 0 <= v < k -> v < 2 * n - 1 -> exists x, bel v x).
  { intros k Hk. pattern k. apply natlike_ind; [intros; lia| |exact Hk]. intros j Hj IH w Hw Hw2.
    destruct (Z_lt_le_dec w n); [exists w; now constructor|].
    destruct (merge_at (w - n)) as [a [b [E [Ba [Bb _]]]]]; [lia|]. destruct (IH a) as [x B]; [lia|lia|].
    exists x. replace w with (n + (w - n)) by lia. eapply below_left; eauto. }
  apply (G (v + 1)); lia.
Qed.

(** Leaves of a node *)
Lemma descendents_ok fuel : forall v, 0 <= v < 2 * n - 1 -> v < Z.of_nat fuel -> exists l, descendents fuel children n v = Ok l /\ forall x, In x l <-> bel v x.
Proof.
  induction fuel as [|fuel IH]; intros v Hv Hf; [lia|]. cbn [descendents]. destruct (Z.ltb_spec v n).
  - exists [v]. split; [reflexivity|]. intros x. cbn. split.
    + intros [->|[]]. constructor. lia.
    + intros B. left. now apply below_small.
  - destruct (merge_at (v - n)) as [a [b [E [Ba [Bb _]]]]]; [lia|]. rewrite (py_get_in children (v - n) (a, b) ltac:(lia) E). cbn [bind fst snd].
    destruct (IH b) as [lb [Eb Hb]]; [lia|lia|]. destruct (IH a) as [la [Ea Ha]]; [lia|lia|]. rewrite Eb, Ea. cbn [bind].
    exists (lb ++ la). split; [reflexivity|]. intros x. rewrite in_app_iff, Hb, Ha.
    split.
    + intros [B|B]; replace v with (n + (v - n)) by lia; [eapply below_right|eapply below_left]; eauto.
    + intros B. replace v with (n + (v - n)) in B by lia. apply (below_inv _ _ _ _ E) in B. tauto.
Qed.

(** Labels *)
Lemma label_nodes_ok : forall nodes i label,
  (forall v, In v nodes -> 0 <= - v < 2 * n - 1) -> zlen label = n ->
  (forall p q u v x, Znth nodes p = Some u -> Znth nodes q = Some v -> bel (- u) x -> bel (- v) x -> p = q) ->
  exists out, label_nodes i nodes children n label = Ok out /\ zlen out = n /\
    (forall p u x, Znth nodes p = Some u -> bel (- u) x -> Znth out x = Some (i + p)) /\
    (forall x, (forall u, In u nodes -> ~ bel (- u) x) -> Znth out x = Znth label x).
Proof.
  induction nodes as [|u nodes IH]; intros i label R L Dj.
  - exists label. cbn. split; [reflexivity|]. split; [assumption|]. split; [|auto].
    intros p u x E. apply Znth_Some_lt in E. change (zlen (@nil Z)) with 0 in E. lia.
  - cbn [label_nodes]. assert (Ru := R u (or_introl eq_refl)).
    destruct (descendents_ok (Z.to_nat (1 - u)) (- u)) as [l [El Hl]]; [lia|lia|]. rewrite El. cbn [bind].
    unfold assign. rewrite (proj2 (forallb_forall _ l)).
    2:{ intros x I. apply Hl, below_range in I. rewrite L. apply andb_true_iff. split; [apply Z.leb_le|apply Z.ltb_lt]; lia. }
    cbn [bind]. set (label' := mapi _ label).
    assert (L' : zlen label' = n) by (unfold label'; now rewrite zlen_mapi).
    assert (In1 : forall x, bel (- u) x -> Znth label' x = Some i).
    { intros x B. pose proof (below_range _ _ B) as Rx. destruct (Znth_ex label x) as [o Eo]; [lia|].
      unfold label'. rewrite Znth_mapi, Eo. cbn [option_map]. rewrite (proj2 (existsb_exists _ _)); [reflexivity|].
      exists x. split; [now apply Hl|apply Z.eqb_refl]. }
    assert (Out : forall x, ~ bel (- u) x -> Znth label' x = Znth label x).
    { intros x B. unfold label'. rewrite Znth_mapi. destruct (Znth label x) as [o|] eqn:Eo; cbn [option_map]; [|reflexivity].
      destruct (existsb (Z.eqb x) l) eqn:Ex; [|reflexivity].
      apply existsb_exists in Ex. destruct Ex as [y [I Y]]. apply Z.eqb_eq in Y. subst y. apply Hl in I. tauto. }
    destruct (IH (i + 1) label') as [out [Eo [Lo [H1 H2]]]].
    + intros v I. apply R. now right.
    + assumption.
    + intros p q v w x Ep Eq Bv Bw. enough (p + 1 = q + 1) by lia.
      pose proof (Znth_Some_lt _ _ _ Ep). pose proof (Znth_Some_lt _ _ _ Eq).
      apply (Dj _ _ v w x); try assumption; rewrite Znth_cons by lia; now rewrite Z.add_simpl_r.
    + exists out. split; [exact Eo|]. split; [exact Lo|]. split.
      * intros p v x Ep Bv. pose proof (Znth_Some_lt _ _ _ Ep) as Rp. destruct (Z.eq_dec p 0) as [->|Np].
        -- rewrite Znth_0 in Ep. injection Ep as <-. rewrite Z.add_0_r. rewrite H2; [now apply In1|].
           intros w I Bw. apply In_Znth in I. destruct I as [q [_ Eq]]. pose proof (Znth_Some_lt _ _ _ Eq).
           assert (0 = q + 1); [|lia]. apply (Dj _ _ u w x); try assumption; [apply Znth_0|]. rewrite Znth_cons by lia. now rewrite Z.add_simpl_r.
        -- rewrite Znth_cons in Ep by lia. rewrite (H1 _ _ _ Ep Bv). f_equal. lia.
      * intros x Hx. rewrite H2; [apply Out; apply Hx; now left|]. intros w I. apply Hx. now right.
Qed.
End Tree.
