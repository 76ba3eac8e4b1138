(** Proofs about Nerve: nodes and edges. *)
From Coq Require Import Sorted Permutation.
From Verif Require Import Np NpFacts CoverProofs MapperModel MapperSpec MapperProofs.
Open Scope Z_scope.

Lemma id_eqb_spec a b : id_eqb a b = true <-> a = b.
Proof.
  unfold id_eqb. rewrite andb_true_iff, !Z.eqb_eq. destruct a, b; cbn. split; [now intros [-> ->]|now intros [= -> ->]].
Qed.

(** ** The dictionary *)
Definition flat (i : Z) (X : list (list node_id)) : list (node_id * Z) :=
  concat (mapi_from i (fun i sample => map (fun k => (k, i)) sample) X).
Definition dict_of (L : list (node_id * Z)) (d : list (node_id * list Z)) :=
  fold_left (fun d ki => dict_append d (fst ki) (snd ki)) L d.
Lemma lti_dict_of : forall X i d, labels_to_indices_from i X d = dict_of (flat i X) d.
Proof.
  induction X as [|s X IH]; intros i d; cbn; [reflexivity|]. rewrite IH. unfold dict_of, flat.
  rewrite fold_left_app. f_equal. revert d. induction s as [|k s IHs]; intros d; cbn; [reflexivity|apply IHs].
Qed.
Definition elems (k : node_id) (L : list (node_id * Z)) : list Z :=
  map snd (filter (fun x => id_eqb k (fst x)) L).
Lemma elems_app k L L' : elems k (L ++ L') = elems k L ++ elems k L'.
Proof. unfold elems. now rewrite filter_app, map_app. Qed.
Lemma dict_append_map k i (f : node_id -> list Z) : forall ks, NoDup ks ->
  dict_append (map (fun x => (x, f x)) ks) k i =
  if in_dec id_eq_dec k ks then map (fun x => (x, if id_eqb k x then f x ++ [i] else f x)) ks
  else map (fun x => (x, f x)) ks ++ [(k, [i])].
Proof.
  induction ks as [|k' ks IH]; intros D; [reflexivity|]. inversion D as [|? ? NI D']; subst.
  cbn [map dict_append]. destruct (id_eqb k k') eqn:E.
  - apply id_eqb_spec in E as <-. destruct (in_dec id_eq_dec k (k :: ks)) as [_|N]; [|destruct N; now left].
    f_equal. apply map_ext_in. intros x Hx.
    destruct (id_eqb k x) eqn:E; [|reflexivity]. apply id_eqb_spec in E as <-. contradiction.
  - rewrite IH by assumption. assert (NE : k <> k'). { intros ->. rewrite (proj2 (id_eqb_spec k' k') eq_refl) in E. discriminate. }
    destruct (in_dec id_eq_dec k ks) as [I|I]; destruct (in_dec id_eq_dec k (k' :: ks)) as [I'|I'].
    + reflexivity.
    + destruct I'. now right.
    + destruct I' as [I'|I']; [congruence|contradiction].
    + reflexivity.
Qed.
Lemma first_occ_snoc l k : first_occurrences (l ++ [k]) =
  if in_dec id_eq_dec k l then first_occurrences l else first_occurrences l ++ [k].
Proof.
  unfold first_occurrences. rewrite rev_app_distr. cbn [rev app nodup].
  destruct (in_dec id_eq_dec k (rev l)) as [I|I]; destruct (in_dec id_eq_dec k l) as [I'|I']; auto.
  - exfalso. apply I'. now apply in_rev.
  - exfalso. apply I. now apply in_rev in I'.
Qed.
Lemma first_occ_In l k : In k (first_occurrences l) <-> In k l.
Proof. unfold first_occurrences. rewrite <- in_rev, nodup_In, <- in_rev. reflexivity. Qed.
Lemma first_occ_NoDup l : NoDup (first_occurrences l).
Proof. unfold first_occurrences. apply NoDup_rev, NoDup_nodup. Qed.
Lemma elems_single k i x : elems x [(k, i)] = if id_eqb x k then [i] else [].
Proof. unfold elems. cbn [filter fst]. now destruct (id_eqb x k). Qed.
Lemma id_eqb_sym a b : id_eqb a b = id_eqb b a.
Proof. unfold id_eqb. now rewrite (Z.eqb_sym (fst a)), (Z.eqb_sym (snd a)). Qed.
Lemma dict_of_spec L : dict_of L [] = map (fun k => (k, elems k L)) (first_occurrences (map fst L)).
Proof.
  induction L as [|[k i] L IH] using rev_ind; [reflexivity|].
  unfold dict_of in *. rewrite fold_left_app, IH. cbn [fold_left fst snd].
  rewrite dict_append_map by apply first_occ_NoDup. rewrite map_app. cbn [map fst]. rewrite first_occ_snoc.
  destruct (in_dec id_eq_dec k (first_occurrences (map fst L))) as [I|I];
    destruct (in_dec id_eq_dec k (map fst L)) as [I'|I'].
  - apply map_ext. intros x. f_equal. rewrite elems_app, elems_single, (id_eqb_sym x k).
    destruct (id_eqb k x); [reflexivity|now rewrite app_nil_r].
  - exfalso. apply I'. now apply first_occ_In.
  - exfalso. apply I. now apply first_occ_In.
  - rewrite map_app. cbn [map]. f_equal.
    + apply map_ext_in. intros x Hx. f_equal. rewrite elems_app, elems_single.
      destruct (id_eqb x k) eqn:E; [|now rewrite app_nil_r]. apply id_eqb_spec in E as ->. contradiction.
    + f_equal. f_equal. rewrite elems_app, elems_single, (proj2 (id_eqb_spec k k) eq_refl).
      assert (F : elems k L = []); [|now rewrite F].
      { destruct (elems k L) as [|y t] eqn:F; [reflexivity|]. exfalso. apply I'.
        assert (Hy : In y (elems k L)) by (rewrite F; now left). unfold elems in Hy.
        apply in_map_iff in Hy as [z [_ Hy]].
        apply filter_In in Hy as [Hy E]. apply id_eqb_spec in E as ->. now apply in_map. }
Qed.

Lemma flat_In : forall X i k s, In (k, s) (flat i X) <-> i <= s /\ has_label X (s - i) k.
Proof.
  induction X as [|x X IH]; intros i k s.
  - cbn. split; [intros []|]. intros [_ [sample [E _]]]. rewrite Znth_None in E; [discriminate|].
    change (zlen (@nil (list (Z * Z)))) with 0. lia.
  - unfold flat in *. cbn [mapi_from concat]. rewrite in_app_iff, IH, in_map_iff. unfold has_label. split.
    + intros [[k' [[= -> ->] I]]|[G [sample [E I]]]].
      * split; [lia|]. exists x. rewrite Z.sub_diag, Znth_0. auto.
      * split; [lia|]. exists sample. rewrite Znth_cons by lia. replace (s - i - 1) with (s - (i + 1)) by lia. auto.
    + intros [G [sample [E I]]]. destruct (Z.eq_dec s i) as [->|N].
      * left. rewrite Z.sub_diag, Znth_0 in E. injection E as ->. eauto.
      * right. split; [lia|]. exists sample. rewrite Znth_cons in E by lia. replace (s - (i + 1)) with (s - i - 1) by lia. auto.
Qed.
Lemma flat_fst : forall X i, map fst (flat i X) = concat X.
Proof.
  induction X as [|x X IH]; intros i; [reflexivity|]. unfold flat in *. cbn [mapi_from concat]. rewrite map_app, IH.
  f_equal. rewrite map_map. cbn. apply map_id.
Qed.
Lemma elems_In k L s : In s (elems k L) <-> In (k, s) L.
Proof.
  unfold elems. rewrite in_map_iff. split.
  - intros [[k' s'] [E I]]. apply filter_In in I as [I K]. apply id_eqb_spec in K. cbn in *. congruence.
  - intros I. exists (k, s). split; [reflexivity|]. apply filter_In. split; [assumption|]. now apply id_eqb_spec.
Qed.
Lemma elems_sample k i x : NoDup x -> elems k (map (fun k => (k, i)) x) = if in_dec id_eq_dec k x then [i] else [].
Proof.
  induction x as [|a x IH]; intros D; [reflexivity|]. inversion D as [|? ? NI D']; subst.
  unfold elems in *. cbn [map filter fst]. specialize (IH D'). destruct (id_eqb k a) eqn:E.
  - apply id_eqb_spec in E as <-. cbn [map snd]. rewrite IH. destruct (in_dec id_eq_dec k x); [contradiction|].
    destruct (in_dec id_eq_dec k (k :: x)) as [_|N]; [reflexivity|]. destruct N. now left.
  - rewrite IH. assert (k <> a). { intros ->. rewrite (proj2 (id_eqb_spec a a) eq_refl) in E. discriminate. }
    destruct (in_dec id_eq_dec k x) as [I|I]; destruct (in_dec id_eq_dec k (a :: x)) as [I'|I']; auto.
    + destruct I'. now right.
    + destruct I' as [<-|]; contradiction.
Qed.
Lemma elems_sorted k : forall X i, (forall x, In x X -> NoDup x) -> StronglySorted Z.lt (elems k (flat i X)).
Proof.
  induction X as [|x X IH]; intros i D; [constructor|]. unfold flat in *. cbn [mapi_from concat].
  rewrite elems_app, elems_sample by (apply D; now left).
  assert (S : StronglySorted Z.lt (elems k (concat (mapi_from (i + 1) (fun i0 sample => map (fun k0 => (k0, i0)) sample) X)))).
  { apply IH. intros; apply D; now right. }
  destruct (in_dec id_eq_dec k x); cbn [app]; [|exact S]. constructor; [exact S|].
  apply Forall_forall. intros y Hy. apply elems_In in Hy. fold (flat (i + 1) X) in Hy. apply flat_In in Hy. lia.
Qed.
Lemma has_label_concat X s k : has_label X s k -> In k (concat X).
Proof. intros [x [E I]]. apply in_concat. exists x. split; [now apply Znth_In in E|assumption]. Qed.
Lemma concat_has_label X k : In k (concat X) -> exists s, has_label X s k.
Proof.
  intros I. apply in_concat in I as [x [Ix I]]. apply In_Znth in Ix as [s [_ E]]. exists s, x. auto.
Qed.
Lemma lti_nodes X : (forall x, In x X -> NoDup x) -> nodes_of X (labels_to_indices X).
Proof.
  intros D. unfold labels_to_indices. rewrite lti_dict_of, dict_of_spec, flat_fst. split.
  - rewrite map_map. cbn. apply map_id.
  - intros k l I. apply in_map_iff in I as [k' [E I]]. injection E as -> <-. apply (proj1 (first_occ_In _ _)) in I.
    assert (M : forall s, In s (elems k (flat 0 X)) <-> has_label X s k).
    { intros s. rewrite elems_In, flat_In, Z.sub_0_r. split; [now intros [? ?]|]. intros H. split; [|assumption].
      destruct H as [x [E _]]. now apply Znth_Some_lt in E. }
    split; [|split; [now apply elems_sorted|assumption]].
    destruct (concat_has_label X k I) as [s Hs]. apply M in Hs. intros E. now rewrite E in Hs.
Qed.

(** ** Intersections *)
Lemma insert_unique_In x l : forall y, In y (insert_unique x l) <-> y = x \/ In y l.
Proof.
  induction l as [|a l IH]; intros y; cbn.
  - split; [intros [<-|[]]; auto|intros [->|[]]; auto].
  - destruct (x <? a); [cbn; split; intros [H|H]; auto|]. destruct (Z.eqb_spec x a) as [->|].
    + cbn. split; [auto|]. intros [->|H]; auto.
    + cbn. rewrite IH. tauto.
Qed.
Lemma insert_unique_sorted x l : StronglySorted Z.lt l -> StronglySorted Z.lt (insert_unique x l).
Proof.
  induction 1 as [|a l S IH F]; cbn; [repeat constructor|].
  destruct (Z.ltb_spec x a).
  - constructor; [now constructor|]. constructor; [assumption|]. rewrite Forall_forall in *. intros y Hy. specialize (F y Hy). lia.
  - destruct (Z.eqb_spec x a) as [->|].
    + now constructor.
    + constructor; [assumption|]. rewrite Forall_forall in *. intros y Hy. apply insert_unique_In in Hy as [->|Hy]; [lia|auto].
Qed.
Lemma intersect1d_common a b : common a b (intersect1d a b).
Proof.
  unfold intersect1d. split.
  - induction (filter _ a); cbn; [constructor|now apply insert_unique_sorted].
  - intros x. transitivity (In x (filter (fun x => existsb (Z.eqb x) b) a)).
    + induction (filter _ a); cbn; [reflexivity|]. rewrite insert_unique_In, IHl. split; intros [H|H]; auto.
    + rewrite filter_In. split; intros [H E]; (split; [assumption|]).
      * apply existsb_exists in E as [y [Hy E]]. apply Z.eqb_eq in E. now subst.
      * apply existsb_exists. exists x. split; [assumption|apply Z.eqb_refl].
Qed.
Lemma common_unique a b l : common a b l -> l = intersect1d a b.
Proof.
  intros [S M]. destruct (intersect1d_common a b) as [S' M']. apply sorted_lt_unique; auto. intros x. now rewrite M, M'.
Qed.

(** ** Pairs of nodes *)
Lemma comb2_In {A} (l : list A) : forall i0 i j a b,
  In ((i, a), (j, b)) (combinations2 (mapi_from i0 (fun i x => (i, x)) l)) <->
  i0 <= i /\ i < j /\ Znth l (i - i0) = Some a /\ Znth l (j - i0) = Some b.
Proof.
  assert (MI : forall (l : list A) i0 i a, In (i, a) (mapi_from i0 (fun i x => (i, x)) l) <-> i0 <= i /\ Znth l (i - i0) = Some a).
  { clear l. induction l as [|x l IH]; intros i0 i a; cbn.
    - split; [intros []|]. intros [_ E]. rewrite Znth_None in E; [discriminate|]. change (zlen (@nil A)) with 0. lia.
    - rewrite IH. split.
      + intros [E|[G E]]; [injection E as -> ->; rewrite Z.sub_diag, Znth_0; split; [lia|reflexivity]|].
        split; [lia|]. rewrite Znth_cons by lia. now replace (i - i0 - 1) with (i - (i0 + 1)) by lia.
      + intros [G E]. destruct (Z.eq_dec i i0) as [->|N].
        * left. rewrite Z.sub_diag, Znth_0 in E. congruence.
        * right. split; [lia|]. rewrite Znth_cons in E by lia. now replace (i - (i0 + 1)) with (i - i0 - 1) by lia. }
  induction l as [|x l IH]; intros i0 i j a b; cbn [mapi_from combinations2].
  - split; [intros []|]. intros [_ [_ [E _]]]. rewrite Znth_None in E; [discriminate|]. change (zlen (@nil A)) with 0. lia.
  - rewrite in_app_iff, IH, in_map_iff. split.
    + intros [[[j' b'] [E I]]|[G [L [E1 E2]]]].
      * injection E as -> -> -> ->. apply MI in I as [G E]. rewrite Z.sub_diag, Znth_0.
        repeat split; try lia. rewrite Znth_cons by lia. now replace (j - i - 1) with (j - (i + 1)) by lia.
      * repeat split; try lia; rewrite Znth_cons by lia; [now replace (i - i0 - 1) with (i - (i0 + 1)) by lia|now replace (j - i0 - 1) with (j - (i0 + 1)) by lia].
    + intros [G [L [E1 E2]]]. destruct (Z.eq_dec i i0) as [->|N].
      * left. exists (j, b). rewrite Z.sub_diag, Znth_0 in E1. injection E1 as ->. split; [reflexivity|].
        apply MI. split; [lia|]. rewrite Znth_cons in E2 by lia. now replace (j - (i0 + 1)) with (j - i0 - 1) by lia.
      * right. repeat split; try lia; [rewrite Znth_cons in E1 by lia; now replace (i - (i0 + 1)) with (i - i0 - 1) by lia
          |rewrite Znth_cons in E2 by lia; now replace (j - (i0 + 1)) with (j - i0 - 1) by lia].
Qed.
Definition idx_pair {A} (t : (Z * A) * (Z * A)) : Z * Z := (fst (fst t), fst (snd t)).
Lemma sorted_app {A} (R : A -> A -> Prop) l l' : StronglySorted R l -> StronglySorted R l' ->
  (forall a b, In a l -> In b l' -> R a b) -> StronglySorted R (l ++ l').
Proof.
  induction 1 as [|a l S IH F]; intros S' H; [exact S'|]. cbn. constructor.
  - apply IH; auto. intros; apply H; [now right|assumption].
  - apply Forall_app. split; [assumption|]. apply Forall_forall. intros b Hb. apply H; [now left|assumption].
Qed.
Lemma comb2_sorted {A} (l : list A) : forall i0,
  StronglySorted (fun t u => pair_lt (idx_pair t) (idx_pair u)) (combinations2 (mapi_from i0 (fun i x => (i, x)) l)).
Proof.
  induction l as [|x l IH]; intros i0; cbn [mapi_from combinations2]; [constructor|].
  apply sorted_app; [|apply IH|].
  - assert (G : forall (l : list A) j0, StronglySorted (fun t u : (Z * A) * (Z * A) => pair_lt (idx_pair t) (idx_pair u))
       (map (fun y => (i0, x, y)) (mapi_from j0 (fun i x => (i, x)) l)) /\
       forall t, In t (map (fun y => (i0, x, y)) (mapi_from j0 (fun i x => (i, x)) l)) -> fst (fst t) = i0 /\ j0 <= fst (snd t)).
    { clear. induction l as [|y l IH]; intros j0; cbn; [split; [constructor|intros ? []]|].
      destruct (IH (j0 + 1)) as [S F]. split.
      - constructor; [assumption|]. apply Forall_forall. intros t Ht. apply F in Ht as [E L]. unfold pair_lt, idx_pair. cbn. rewrite E. lia.
      - intros t [<-|Ht]; [cbn; lia|]. apply F in Ht. lia. }
    apply G.
  - intros [[i a] [j b]] [[i' a'] [j' b']] H H'. apply in_map_iff in H as [y [E _]]. injection E as <- <- _.
    apply comb2_In in H' as [H' _]. left. unfold idx_pair. cbn. lia.
Qed.
Lemma sorted_filter {A} (R : A -> A -> Prop) f l : StronglySorted R l -> StronglySorted R (filter f l).
Proof.
  induction 1 as [|a l S IH F]; cbn; [constructor|]. destruct (f a); [|assumption]. constructor; [assumption|].
  rewrite Forall_forall in *. intros x Hx. apply filter_In in Hx. now apply F.
Qed.

(** ** Edges *)
Definition edge_of (mi : Z) (store contract : bool) (t : (Z * gnode) * (Z * gnode)) : list edge :=
  let '((i, (_, el1)), (j, (_, el2))) := t in
  let inter := intersect1d el1 el2 in
  if zlen inter =? 0 then [] else
  if contract && ((zlen inter =? zlen el2) || (zlen inter =? zlen el1)) then [] else
  if mi <=? zlen inter then [Edge i j (zlen inter) (if store then Some inter else None)] else [].
Lemma fold_edges mi store contract : forall ts es m,
  fst (fold_left (edge_step mi store contract) ts (es, m)) = es ++ flat_map (edge_of mi store contract) ts.
Proof.
  induction ts as [|[[i [k1 el1]] [j [k2 el2]]] ts IH]; intros es m; cbn [fold_left flat_map]; [now rewrite app_nil_r|].
  cbn [edge_step edge_of]. set (inter := intersect1d el1 el2). unfold metadata_append. cbn [fst snd].
  destruct (zlen inter =? 0); [apply IH|]. destruct contract; cbn [andb].
  - destruct (zlen inter =? zlen el2); cbn [orb]; [apply IH|]. destruct (zlen inter =? zlen el1); [apply IH|].
    rewrite IH. destruct (mi <=? zlen inter); [now rewrite <- app_assoc|reflexivity].
  - rewrite IH. destruct (mi <=? zlen inter); [now rewrite <- app_assoc|reflexivity].
Qed.
Definition pairs (nodes : list gnode) := filter (fun t => negb (same_pullback t)) (combinations2 (mapi (fun i x => (i, x)) nodes)).
Lemma pairs_In nodes i j a b : In ((i, a), (j, b)) (pairs nodes) <->
  0 <= i < j /\ Znth nodes i = Some a /\ Znth nodes j = Some b /\ fst (fst a) <> fst (fst b).
Proof.
  unfold pairs, mapi. rewrite filter_In, comb2_In, !Z.sub_0_r. unfold same_pullback. cbn.
  rewrite negb_true_iff, Z.eqb_neq. tauto.
Qed.
Lemma edges_sorted mi store contract nodes :
  StronglySorted (fun e f => pair_lt (e_src e, e_dst e) (e_src f, e_dst f)) (flat_map (edge_of mi store contract) (pairs nodes)).
Proof.
  assert (S : StronglySorted (fun t u => pair_lt (idx_pair t) (idx_pair u)) (pairs nodes)).
  { unfold pairs. apply sorted_filter, comb2_sorted. }
  induction S as [|t l S IH F]; cbn; [constructor|].
  assert (E : forall t e, In e (edge_of mi store contract t) -> (e_src e, e_dst e) = idx_pair t).
  { clear. intros [[i [k1 el1]] [j [k2 el2]]] e. cbn. destruct (zlen _ =? 0); [easy|].
    destruct (contract && _); [easy|]. destruct (mi <=? _); [|easy]. intros [<-|[]]. reflexivity. }
  apply sorted_app; auto.
  - clear. destruct t as [[i [k1 el1]] [j [k2 el2]]]. cbn. destruct (zlen _ =? 0); [constructor|].
    destruct (contract && _); [constructor|]. destruct (mi <=? _); repeat constructor.
  - intros e f He Hf. apply in_flat_map in Hf as [u [Hu Hf]]. apply E in He, Hf. rewrite He, Hf.
    rewrite Forall_forall in F. now apply F.
Qed.
Lemma edges_In mi store contract nodes e : In e (flat_map (edge_of mi store contract) (pairs nodes)) <->
  exists k1 l1 k2 l2 inter,
    0 <= e_src e < e_dst e /\ Znth nodes (e_src e) = Some (k1, l1) /\ Znth nodes (e_dst e) = Some (k2, l2) /\
    fst k1 <> fst k2 /\ common l1 l2 inter /\
    (contract = true -> zlen inter <> zlen l1 /\ zlen inter <> zlen l2) /\
    1 <= zlen inter /\ mi <= zlen inter /\ e_weight e = zlen inter /\ e_elems e = (if store then Some inter else None).
Proof.
  rewrite in_flat_map. split.
  - intros [[[i [k1 l1]] [j [k2 l2]]] [I He]]. apply pairs_In in I as [Hij [E1 [E2 N]]]. cbn in N.
    exists k1, l1, k2, l2, (intersect1d l1 l2). cbn [edge_of] in He. pose proof (zlen_nonneg (intersect1d l1 l2)).
    destruct (Z.eqb_spec (zlen (intersect1d l1 l2)) 0); [easy|].
    destruct (contract && _) eqn:C; [easy|]. destruct (Z.leb_spec mi (zlen (intersect1d l1 l2))); [|easy].
    destruct He as [<-|[]]. cbn. split; [assumption|]. split; [assumption|]. split; [assumption|]. split; [assumption|].
    split; [apply intersect1d_common|]. split; [|repeat split; auto; lia]. intros ->. cbn in C.
    apply orb_false_iff in C as [C1 C2]. apply Z.eqb_neq in C1, C2. auto.
  - intros [k1 [l1 [k2 [l2 [inter [Hij [E1 [E2 [N [C [Ct [H1 [H2 [W El]]]]]]]]]]]]]].
    exists ((e_src e, (k1, l1)), (e_dst e, (k2, l2))). split; [now apply pairs_In|]. cbn [edge_of].
    rewrite <- (common_unique _ _ _ C). rewrite (proj2 (Z.eqb_neq _ _)) by lia.
    assert (contract && ((zlen inter =? zlen l2) || (zlen inter =? zlen l1)) = false) as ->.
    { destruct contract; [|reflexivity]. destruct (Ct eq_refl) as [? ?]. now rewrite !(proj2 (Z.eqb_neq _ _)) by assumption. }
    rewrite (proj2 (Z.leb_le _ _) H2). left. destruct e; cbn in *. congruence.
Qed.
Lemma generate_edges mi store contract nodes :
  fst (generate_edge_data mi store contract nodes) = flat_map (edge_of mi store contract) (pairs nodes).
Proof. unfold generate_edge_data. rewrite fold_edges. reflexivity. Qed.
Lemma nerve_nil_inv X : labels_to_indices X = [] <-> concat X = [].
Proof.
  unfold labels_to_indices. rewrite lti_dict_of, dict_of_spec, flat_fst. split.
  - intros E. apply map_eq_nil in E. destruct (concat X) as [|k t] eqn:Ec; [reflexivity|].
    assert (I : In k (first_occurrences (k :: t))) by (apply first_occ_In; now left). rewrite E in I. destruct I.
  - intros ->. reflexivity.
Qed.
