(** Properties C44-C47: clustering of the pullback sets, nerve, Mapper. *)
From Coq Require Import Sorted Permutation.
From Verif Require Import Np NpFacts Fl CoverModel CoverSpec CoverProofs CoverThms MapperModel MapperSpec MapperProofs MapperProofs2 MapperProofs3.
Open Scope Z_scope.

(** ** C44: ParallelClustering *)
Section Clustering.
Context {A W : Type}.
Variables (pre acc : bool) (clusterer : list (list A) -> option (list W) -> res (list Z)).
Variables (sw : option (list W)) (X : list (list A)).
(** The weights passed on to the clusterer *)
Definition used_weights : option (list W) := if acc then sw else None.
(** The labels a sample gets: one pair for each portion containing it, in the
    order of the portions, made of the number of the portion and of the label
    given by the clusterer run on this portion alone. *)
Definition labels_of (masks : list (list bool)) (p : Z) (t : list (Z * Z)) : Prop :=
  StronglySorted Z.lt (map fst t) /\
  forall i l, In (i, l) t <->
    exists c rel ls q, Znth masks i = Some c /\
      clusters_portion pre clusterer used_weights X c rel ls /\
      Znth rel q = Some p /\ Znth ls q = Some l.
Let task (masks : list (list bool)) := fun k =>
        do c <- py_get masks k;
        let rel := flatnonzero c in
        do Xs <- (if pre then select_block else select_rows) X rel;
        do ws <- (match used_weights with
                  | Some w => do w' <- gather w rel; Ok (Some w')
                  | None => Ok None
                  end);
        do ls <- clusterer Xs ws;
        Ok (rel, ls).
Lemma pc_unfold sched n masks : parallel_clustering sched pre acc clusterer sw X true n masks =
  if (zlen X =? 0) || (n =? 0) || (zlen masks =? 0) then Err ValueError
  else if negb (zlen X =? n) then Err ValueError
  else do rs <- parallel_calls sched (zlen masks) (task masks); assign_all 0 rs (repeat [] (Z.to_nat n)).
Proof. reflexivity. Qed.

Lemma task_ok masks k c rel ls : Znth masks k = Some c ->
  clusters_portion pre clusterer used_weights X c rel ls ->
  task masks k = Ok (rel, ls).
Proof.
  intros E [Y [w' [M [P [Hw [C L]]]]]]. unfold task. rewrite (py_get_in _ _ _ (Znth_pos _ _ _ E) E). cbn [bind].
  rewrite <- (members_unique c rel M). rewrite (select_portion pre X rel Y P). cbn [bind].
  unfold weight_portion in Hw. destruct used_weights as [w|], w' as [w'|]; try easy.
  - rewrite (gather_picks _ _ _ Hw). cbn [bind]. rewrite C. reflexivity.
  - cbn [bind]. rewrite C. reflexivity.
Qed.

Theorem parallel_clustering_spec : forall sched n masks,
  0 < n -> zlen X = n -> masks <> [] -> 
  Permutation sched (arange (zlen masks)) ->
  (forall c, In c masks -> zlen c = n /\ exists rel ls, clusters_portion pre clusterer used_weights X c rel ls) ->
  exists labels,
    parallel_clustering sched pre acc clusterer sw X true n masks = Ok labels /\
    zlen labels = n /\
    forall p t, Znth labels p = Some t -> labels_of masks p t.
Proof.
  intros sched n masks Hn LX NE P H. rewrite pc_unfold.
  assert (Lm : zlen masks <> 0). { destruct masks; [easy|]. rewrite zlen_cons. pose proof (zlen_nonneg masks). lia. }
  rewrite (proj2 (Z.eqb_neq _ _)) by lia. rewrite (proj2 (Z.eqb_neq n 0)) by lia.
  rewrite (proj2 (Z.eqb_neq _ _) Lm), (proj2 (Z.eqb_eq _ _) LX). cbn [orb negb].
  assert (T : forall k, 0 <= k < zlen masks -> exists c rel ls, Znth masks k = Some c /\
             clusters_portion pre clusterer used_weights X c rel ls /\ task masks k = Ok (rel, ls)).
  { intros k Hk. destruct (Znth_ex masks k Hk) as [c Ec]. destruct (H c) as [_ [rel [ls C]]]; [eapply Znth_In, Ec|].
    exists c, rel, ls. split; [assumption|]. split; [assumption|]. eapply task_ok; eassumption. }
  set (r := fun k => match task masks k with Ok x => x | Err _ => ([], []) end).
  assert (Hr : forall k, 0 <= k < zlen masks -> task masks k = Ok (r k)).
  { intros k Hk. destruct (T k Hk) as [c [rel [ls [_ [_ E]]]]]. unfold r. now rewrite E. }
  rewrite (parallel_calls_ok (task masks) r sched) by (auto using zlen_nonneg). cbn [bind].
  destruct (assign_all_spec n (tabZ (zlen masks) r) 0 (repeat [] (Z.to_nat n))) as [out [-> [Lo N]]].
  { apply zlen_repeat. lia. }
  { intros rel ls I. apply In_tabZ in I as [k [Hk E]]. destruct (T k Hk) as [c [rel' [ls' [_ [C E']]]]].
    rewrite Hr in E' by assumption. rewrite E in E'. injection E' as <- <-.
    destruct C as [Y [w' [M [_ [_ [_ L]]]]]]. split; [assumption|]. apply sorted_lt_NoDup, M. }
  exists out. split; [reflexivity|]. split; [assumption|]. intros p t Et.
  pose proof (Znth_Some_lt _ _ _ Et) as Hp. rewrite Lo in Hp.
  destruct (N p [] (Znth_repeat _ _ _ Hp)) as [u [Eu [S M]]]. cbn [app] in Eu.
  assert (t = u) as -> by congruence. split; [exact S|]. intros i l. rewrite M. split.
  - intros [rel [ls [q [Hi [Z1 [Z2 Z3]]]]]]. rewrite Z.sub_0_r in Z1.
    pose proof (Znth_Some_lt _ _ _ Z1) as Hk. rewrite zlen_tabZ in Hk by apply zlen_nonneg.
    rewrite Znth_tabZ in Z1 by assumption. destruct (T i Hk) as [c [rel' [ls' [Ec [C E']]]]].
    rewrite Hr in E' by assumption. exists c, rel', ls', q.
    assert (E2 : (rel, ls) = (rel', ls')) by congruence. injection E2 as <- <-. auto.
  - intros [c [rel [ls [q [Ec [C [Z2 Z3]]]]]]]. exists rel, ls, q.
    pose proof (Znth_Some_lt _ _ _ Ec) as Hk. split; [lia|]. rewrite Z.sub_0_r, Znth_tabZ by assumption.
    split; [|auto]. f_equal. pose proof (task_ok _ _ _ _ _ Ec C) as E. rewrite Hr in E by assumption. congruence.
Qed.

(** The result does not depend on the order in which the portions are clustered,
    hence not on n_jobs and the backend. *)
Theorem parallel_clustering_schedule : forall s1 s2 b n masks labels,
  Permutation s1 (arange (zlen masks)) -> Permutation s2 (arange (zlen masks)) ->
  parallel_clustering s1 pre acc clusterer sw X b n masks = Ok labels ->
  parallel_clustering s2 pre acc clusterer sw X b n masks = Ok labels.
Proof.
  intros s1 s2 [|] n masks labels P1 P2; [rewrite !pc_unfold|].
  - destruct (_ || _ || _); [easy|]. destruct (negb _); [easy|].
    destruct (parallel_calls s1 _ _) as [rs|] eqn:E; [|discriminate].
    now rewrite (parallel_calls_same _ _ _ _ _ (zlen_nonneg _) P1 P2 E).
  - unfold parallel_clustering. destruct (_ || _ || _); easy.
Qed.

(** A failure of the clusterer on some portion is not swallowed, and wrong inputs
    are refused. *)
Theorem parallel_clustering_failure : forall sched n masks c rel Y w' e,
  Permutation sched (arange (zlen masks)) ->
  In c masks -> members c rel -> portion pre X rel Y -> weight_portion used_weights rel w' ->
  clusterer Y w' = Err e ->
  exists e', parallel_clustering sched pre acc clusterer sw X true n masks = Err e'.
Proof.
  intros sched n masks c rel Y w' e P I M Po Hw C. rewrite pc_unfold.
  destruct (_ || _ || _); [eauto|]. destruct (negb _); [eauto|].
  destruct (parallel_calls sched _ _) as [rs|e'] eqn:E; [|cbn; eauto]. exfalso.
  apply In_Znth in I as [k [Hk Ec]]. destruct (parallel_calls_inv _ _ _ _ P E k Hk) as [r Er].
  unfold task in Er. rewrite (py_get_in _ _ _ (Znth_pos _ _ _ Ec) Ec) in Er. cbn [bind] in Er.
  rewrite <- (members_unique c rel M) in Er. rewrite (select_portion pre X rel Y Po) in Er. cbn [bind] in Er.
  unfold weight_portion in Hw. destruct used_weights as [w|], w' as [w'|]; try easy.
  - rewrite (gather_picks _ _ _ Hw) in Er. cbn [bind] in Er. rewrite C in Er. discriminate.
  - cbn [bind] in Er. rewrite C in Er. discriminate.
Qed.
Theorem parallel_clustering_rejects : forall sched b n masks,
  (b = false -> 0 < zlen X -> 0 < n -> masks <> [] ->
   parallel_clustering sched pre acc clusterer sw X b n masks = Err TypeError) /\
  (zlen X <> n -> exists e, parallel_clustering sched pre acc clusterer sw X b n masks = Err e) /\
  (b = true -> zlen X <> n \/ masks = [] \/ n = 0 ->
   parallel_clustering sched pre acc clusterer sw X b n masks = Err ValueError).
Proof.
  intros. unfold parallel_clustering. split; [|split].
  - intros -> HX Hn NE. assert (0 < zlen masks). { destruct masks; [easy|]. rewrite zlen_cons. pose proof (zlen_nonneg masks). lia. }
    rewrite !(proj2 (Z.eqb_neq _ _)) by lia. reflexivity.
  - intros N. destruct (_ || _ || _); [eauto|]. destruct b; cbn [negb]; [|eauto].
    rewrite (proj2 (Z.eqb_neq _ _) N). cbn. eauto.
  - intros -> C. destruct (zlen X =? 0); [reflexivity|]. destruct (Z.eqb_spec n 0); [reflexivity|].
    destruct (Z.eqb_spec (zlen masks) 0) as [|Nm]; [reflexivity|]. cbn [orb negb].
    destruct C as [N|[->|]]; [|now destruct Nm|contradiction]. now rewrite (proj2 (Z.eqb_neq _ _) N).
Qed.
End Clustering.
(** Two overlapping portions of four samples; each is clustered by the parity of
    the data. *)
Definition ex_clusterer (X : list (list Z)) (_ : option (list Z)) : res (list Z) :=
  Ok (map (fun r => match r with x :: _ => x mod 2 | [] => 0 end) X).
Example parallel_clustering_ex : forall sched, Permutation sched [0; 1] ->
  parallel_clustering sched false false ex_clusterer None [[3]; [4]; [5]; [7]] true 4
    [[true; true; true; false]; [false; true; true; true]] =
  Ok [[(0, 1)]; [(0, 0); (1, 0)]; [(0, 1); (1, 1)]; [(1, 1)]].
Proof.
  intros sched P. apply (parallel_clustering_schedule _ _ _ _ _ [1; 0]); [|exact P|reflexivity].
  apply perm_swap.
Qed.
Print Assumptions parallel_clustering_spec.

(** A clusterer that gives a single label for a portion gives it to all its samples; another
    number of labels than of samples is refused. *)
Section Broadcast.
Definition res_rel {B C} (R : B -> C -> Prop) (r : res B) (r' : res C) : Prop :=
  match r, r' with Ok x, Ok y => R x y | Err e, Err e' => e = e' | _, _ => False end.
Definition slot_rel {B C} (R : B -> C -> Prop) (r : option B) (r' : option C) : Prop :=
  match r, r' with Some x, Some y => R x y | None, None => True | _, _ => False end.
Lemma set_at_rel {B C} (R : B -> C -> Prop) l l' k x x' : Forall2 (slot_rel R) l l' -> R x x' ->
  Forall2 (slot_rel R) (set_at l k (Some x)) (set_at l' k (Some x')).
Proof.
  intros F H. unfold set_at, mapi. generalize 0. induction F as [|a b l l' H1 F IH]; intros i; cbn [mapi_from]; [constructor|].
  destruct (i =? k); constructor; auto.
Qed.
Lemma run_tasks_rel {B C} (R : B -> C -> Prop) t t' sched l l' : (forall k, res_rel R (t k) (t' k)) ->
  Forall2 (slot_rel R) l l' -> res_rel (Forall2 (slot_rel R)) (run_tasks sched t l) (run_tasks sched t' l').
Proof.
  intros T. revert l l'. induction sched as [|k sched IH]; intros l l' F; cbn [run_tasks]; [exact F|].
  specialize (T k). destruct (t k), (t' k); cbn [bind]; cbn in T; try easy. apply IH. now apply set_at_rel.
Qed.
Lemma collect_rel {B C} (R : B -> C -> Prop) l l' : Forall2 (slot_rel R) l l' -> res_rel (Forall2 R) (collect l) (collect l').
Proof.
  unfold collect. induction 1 as [|a b l l' H F IH]; cbn [mapM]; [constructor|]. destruct a, b; cbn in H; try easy. cbn [bind].
  destruct (mapM _ l), (mapM _ l'); cbn in IH |- *; try easy. now constructor.
Qed.
Lemma parallel_calls_rel {B C} (R : B -> C -> Prop) t t' sched n : (forall k, res_rel R (t k) (t' k)) ->
  res_rel (Forall2 R) (parallel_calls sched n t) (parallel_calls sched n t').
Proof.
  intros T. unfold parallel_calls. pose proof (run_tasks_rel R t t' sched (repeat None (Z.to_nat n)) (repeat None (Z.to_nat n)) T) as H.
  assert (F : Forall2 (slot_rel R) (repeat None (Z.to_nat n)) (repeat None (Z.to_nat n))) by (clear; induction (Z.to_nat n); cbn [repeat]; constructor; cbn; auto).
  specialize (H F). destruct (run_tasks sched t _), (run_tasks sched t' _); cbn in H; try easy. cbn [bind]. now apply collect_rel.
Qed.
Lemma gather_len {B} (l : list B) idx out : gather l idx = Ok out -> length out = length idx.
Proof. intros H. apply Nat2Z.inj. symmetry. exact (Forall2_zlen _ _ _ (mapM_Ok_inv _ _ _ H)). Qed.

Theorem parallel_clustering_broadcast {A W} : forall (clusterer clusterer' : list (list A) -> option (list W) -> res (list Z))
  sched pre acc sw X b n masks,
  (forall Y w, clusterer' Y w = match clusterer Y w with Ok [l] => Ok (repeat l (length Y)) | r => r end) ->
  parallel_clustering sched pre acc clusterer sw X b n masks =
  parallel_clustering sched pre acc clusterer' sw X b n masks.
Proof.
  intros cl cl' sched pre acc sw X b n masks H. unfold parallel_clustering.
  destruct (_ || _ || _); [reflexivity|]. destruct (negb b); [reflexivity|]. destruct (negb _); [reflexivity|]. cbv zeta.
  match goal with |- bind (parallel_calls _ _ ?f) _ = bind (parallel_calls _ _ ?g) _ =>
    pose proof (parallel_calls_rel (fun r r' => forall i ls, assign_labels i (fst r) (snd r) ls = assign_labels i (fst r') (snd r') ls) f g sched (zlen masks)) as P end.
  match type of P with ?T -> _ => assert (HT : T) end.
  - intros k. destruct (py_get masks k) as [c|e]; cbn [bind]; [|reflexivity].
    destruct ((if pre then select_block else select_rows) X (flatnonzero c)) as [Xs|e] eqn:EX; cbn [bind]; [|reflexivity].
    assert (LX : length Xs = length (flatnonzero c)).
    { destruct pre; cbn in EX.
      - unfold select_block in EX. destruct (gather X (flatnonzero c)) as [rows|] eqn:EG; [|discriminate]. cbn [bind] in EX.
        rewrite <- (gather_len _ _ _ EG). apply Nat2Z.inj. symmetry. exact (Forall2_zlen _ _ _ (mapM_Ok_inv _ _ _ EX)).
      - exact (gather_len _ _ _ EX). }
    destruct (match (if acc then sw else None) with Some w => _ | None => _ end) as [ws|e]; cbn [bind]; [|reflexivity].
    rewrite H. destruct (cl Xs ws) as [[|l [|l' ls]]|e]; cbn [bind res_rel fst snd]; try reflexivity. intros i lab. rewrite LX. unfold assign_labels.
    set (m := flatnonzero c). replace (zlen (repeat l (length m))) with (zlen m) by (unfold zlen; now rewrite repeat_length). rewrite (Z.eqb_refl (zlen m)).
    change (zlen [l]) with 1. destruct (Z.eqb_spec 1 (zlen m)) as [E|]; [|reflexivity]. destruct m as [|x [|y m]]; [discriminate|reflexivity|].
    exfalso. rewrite !zlen_cons in E. pose proof (zlen_nonneg m). lia.
  - specialize (P HT). destruct (parallel_calls _ _ _) as [rs|e]; destruct (parallel_calls _ _ _) as [rs'|e']; cbn in P; try easy; cbn [bind].
    + clear H HT. generalize (repeat (@nil node_id) (Z.to_nat n)). generalize 0. induction P as [|[r l] [r' l'] rs rs' E F IH]; intros i lab; [reflexivity|].
      cbn [assign_all fst snd] in *. rewrite E. destruct (assign_labels i r' l' lab); [|reflexivity]. cbn [bind]. apply IH.
    + now rewrite P.
Qed.

Theorem parallel_clustering_wrong_number {A W} : forall (clusterer : list (list A) -> option (list W) -> res (list Z))
  sched (pre acc : bool) sw X n (masks : list (list bool)) c rel Y w' ls,
  Permutation sched (arange (zlen masks)) ->
  In c masks -> members c rel -> portion pre X rel Y -> weight_portion (if acc then sw else None) rel w' ->
  clusterer Y w' = Ok ls -> zlen ls <> zlen rel -> zlen ls <> 1 ->
  exists e, parallel_clustering sched pre acc clusterer sw X true n masks = Err e.
Proof.
  intros cl sched pre acc sw X n masks c rel Y w' ls P I M Po Hw C N1 N2. unfold parallel_clustering.
  destruct (_ || _ || _); [eauto|]. cbn [negb]. destruct (negb _); [eauto|]. cbv zeta.
  destruct (parallel_calls sched _ _) as [rs|e'] eqn:E; [|cbn; eauto]. cbn [bind].
  apply In_Znth in I as [k [Hk Ec]].
  assert (In (rel, ls) rs) as Ir.
  { pose proof (parallel_calls_inv _ _ _ _ P E) as T. 
    set (task := fun k => _) in E, T. set (r := fun k => match task k with Ok x => x | Err _ => ([], []) end).
    assert (Hr : forall k, 0 <= k < zlen masks -> task k = Ok (r k)) by (intros j Hj; destruct (T j Hj) as [y Ey]; unfold r; now rewrite Ey).
    rewrite (parallel_calls_ok task r sched _ (zlen_nonneg _) P Hr) in E. injection E as <-. apply In_tabZ. exists k. split; [exact Hk|].
    assert (task k = Ok (rel, ls)); [|rewrite Hr in H by exact Hk; congruence].
    unfold task. rewrite (py_get_in _ _ _ (Znth_pos _ _ _ Ec) Ec). cbn [bind].
    rewrite <- (members_unique c rel M). rewrite (select_portion pre X rel Y Po). cbn [bind].
    unfold weight_portion in Hw. destruct (if acc then sw else None) as [w|], w' as [w'|]; try easy.
    - rewrite (gather_picks _ _ _ Hw). cbn [bind]. rewrite C. reflexivity.
    - cbn [bind]. rewrite C. reflexivity. }
  clear E. generalize (repeat (@nil node_id) (Z.to_nat n)). generalize 0. induction rs as [|[r l] rs IH]; [destruct Ir|]. intros i lab.
  cbn [assign_all]. destruct Ir as [E|Ir].
  - injection E as -> ->. unfold assign_labels. rewrite (proj2 (Z.eqb_neq _ _) N1), (proj2 (Z.eqb_neq _ _) N2). cbn. eauto.
  - destruct (assign_labels i r l lab); cbn [bind]; [now apply IH|eauto].
Qed.
End Broadcast.

(** ** C45: Nerve *)
(** The edge [e] joins two nodes with different pullback labels which share enough
    samples; weight and elements describe the shared samples. *)
Definition overlap_edge (mi : Z) (store : bool) (nodes : list ((Z * Z) * list Z)) (e : edge) : Prop :=
  exists k1 l1 k2 l2 inter,
    0 <= e_src e < e_dst e /\
    Znth nodes (e_src e) = Some (k1, l1) /\ Znth nodes (e_dst e) = Some (k2, l2) /\
    fst k1 <> fst k2 /\
    common l1 l2 inter /\ 1 <= zlen inter /\ mi <= zlen inter /\
    e_weight e = zlen inter /\ e_elems e = (if store then Some inter else None).
(** The edges come in the order of their endpoints, without repetitions. *)
Definition ordered_edges (es : list edge) : Prop :=
  StronglySorted (fun e f => pair_lt (e_src e, e_dst e) (e_src f, e_dst f)) es.
Theorem nerve_spec : forall X mi store,
  (forall sample, In sample X -> NoDup sample) -> concat X <> [] ->
  exists nodes es,
    nerve_fit_transform mi store false X = Ok (map Some nodes, es) /\
    nodes_of X nodes /\ ordered_edges es /\
    forall e, In e es <-> overlap_edge mi store nodes e.
Proof.
  intros X mi store D NE. exists (labels_to_indices X), (fst (generate_edge_data mi store false (labels_to_indices X))).
  split; [|split; [now apply lti_nodes|]].
  - unfold nerve_fit_transform. destruct (labels_to_indices X) as [|a t] eqn:E; [now apply nerve_nil_inv in E|].
    now destruct (generate_edge_data mi store false (a :: t)).
  - rewrite generate_edges. split; [apply edges_sorted|]. intros e. rewrite edges_In. unfold overlap_edge. split.
    + intros [k1 [l1 [k2 [l2 [inter H]]]]]. exists k1, l1, k2, l2, inter. tauto.
    + intros [k1 [l1 [k2 [l2 [inter H]]]]]. exists k1, l1, k2, l2, inter. intuition discriminate.
Qed.
(** For a refined Mapper cover all pairs of nodes sharing samples are joined. *)
Theorem nerve_refined_spec : forall X mi store nodes es,
  refined X -> nerve_fit_transform mi store false X = Ok (map Some nodes, es) ->
  forall i j k1 l1 k2 l2 inter,
    0 <= i < j -> Znth nodes i = Some (k1, l1) -> Znth nodes j = Some (k2, l2) -> common l1 l2 inter ->
    ((exists e, In e es /\ e_src e = i /\ e_dst e = j) <-> 1 <= zlen inter /\ mi <= zlen inter).
Proof.
  intros X mi store nodes es R E i j k1 l1 k2 l2 inter Hij E1 E2 C.
  destruct (concat X) as [|a t] eqn:Ec.
  { unfold nerve_fit_transform in E. rewrite (proj2 (nerve_nil_inv X) Ec) in E. discriminate. }
  destruct (nerve_spec X mi store (refined_NoDup X R)) as [nodes' [es' [E' [N [_ M]]]]]; [congruence|].
  assert (map Some nodes' = map Some nodes /\ es' = es) as [Em ->] by (rewrite E in E'; injection E' as -> ->; auto).
  assert (nodes' = nodes) as ->.
  { revert Em. clear. revert nodes. induction nodes' as [|x l IH]; intros [|y r] E; try discriminate; [reflexivity|].
    cbn in E. injection E as -> E. f_equal. now apply IH. }
  split.
  - intros [e [He [<- <-]]]. apply M in He as [k1' [l1' [k2' [l2' [inter' [_ [F1 [F2 [_ [C' [H1 [H2 _]]]]]]]]]]]].
    assert (l1' = l1) as -> by congruence. assert (l2' = l2) as -> by congruence.
    rewrite (common_unique _ _ _ C), <- (common_unique _ _ _ C'). auto.
  - intros [H1 H2]. exists (Edge i j (zlen inter) (if store then Some inter else None)). split; [|auto].
    apply M. exists k1, l1, k2, l2, inter. cbn. split; [assumption|]. split; [assumption|]. split; [assumption|]. split; [|split; [exact C|repeat split; auto]].
    intros F. destruct inter as [|s inter]; [change (zlen (@nil Z)) with 0 in H1; lia|].
      destruct C as [_ C]. destruct (proj1 (C s) (or_introl eq_refl)) as [I1 I2].
      eapply (nodes_disj X nodes R N i j); eauto. lia.
Qed.
Theorem nerve_empty : forall X mi store contract,
  concat X = [] -> nerve_fit_transform mi store contract X = Err StopIteration.
Proof. intros X mi store contract E. unfold nerve_fit_transform. now rewrite (proj2 (nerve_nil_inv X) E). Qed.
Definition ex_cover_labels : list (list (Z * Z)) :=
  [[(0, 0)]; [(0, 0); (1, 0)]; [(0, 1); (1, 0)]; [(1, 0); (2, 0)]; [(0, 0); (1, 0)]].
Example nerve_ex : nerve_fit_transform 1 true false ex_cover_labels =
  Ok (map Some [((0, 0), [0; 1; 4]); ((1, 0), [1; 2; 3; 4]); ((0, 1), [2]); ((2, 0), [3])],
      [Edge 0 1 2 (Some [1; 4]); Edge 1 2 1 (Some [2]); Edge 1 3 1 (Some [3])]).
Proof. reflexivity. Qed.
Example nerve_ex_min : nerve_fit_transform 2 false false ex_cover_labels =
  Ok (map Some [((0, 0), [0; 1; 4]); ((1, 0), [1; 2; 3; 4]); ((0, 1), [2]); ((2, 0), [3])],
      [Edge 0 1 2 None]).
Proof. reflexivity. Qed.
Print Assumptions nerve_spec.

(** ** C46: contract_nodes *)
Definition elements (nodes : list ((Z * Z) * list Z)) (x : Z) : list Z :=
  match Znth nodes x with Some (_, l) => l | None => [] end.
(** Nodes whose samples are not contained in those of another node, the first one
    being taken among nodes with the same samples. *)
Definition maximal (nodes : list ((Z * Z) * list Z)) (x : Z) : Prop :=
  0 <= x < zlen nodes /\
  forall y, 0 <= y < zlen nodes -> y <> x -> incl (elements nodes x) (elements nodes y) ->
    x < y /\ incl (elements nodes y) (elements nodes x).
(** contract_nodes=True always ends; it keeps exactly the maximal nodes, every node
    being merged into a maximal one containing it; the vertex of a maximal node
    carries the attributes of the first node merged into it; the edges are those
    between nodes which overlap without being contained in each other, moved to
    the nodes their ends are merged into. *)
Lemma nerve_unfold X mi store : concat X <> [] ->
  nerve_fit_transform mi store true X =
  match limit_mapping (snd (generate_edge_data mi store true (labels_to_indices X))) with
  | None => Err RuntimeError
  | Some lm =>
      let '(vs, es) := contract_vertices (labels_to_indices X) (fst (generate_edge_data mi store true (labels_to_indices X))) lm in
      Ok (delete_vertices vs es (fun i => map_at lm i =? i))
  end.
Proof.
  intros NE. unfold nerve_fit_transform. destruct (labels_to_indices X) as [|a t] eqn:En; [now apply nerve_nil_inv in En|].
  now destruct (generate_edge_data mi store true (a :: t)).
Qed.
Theorem nerve_contract_spec : forall X mi store, refined X -> concat X <> [] ->
  exists nodes into sel vs es0 es,
    nerve_fit_transform mi store true X = Ok (vs, es) /\ nodes_of X nodes /\
    StronglySorted Z.lt sel /\ (forall x, In x sel <-> maximal nodes x) /\
    (forall x, 0 <= x < zlen nodes -> In (into x) sel /\ incl (elements nodes x) (elements nodes (into x))) /\
    (forall x, In x sel -> into x = x) /\
    Forall2 (fun k v => exists x nd, 0 <= x /\ Znth nodes x = Some nd /\ v = Some nd /\ into x = k /\
                        forall y, 0 <= y < x -> into y <> k) sel vs /\
    ordered_edges es0 /\
    (forall e, In e es0 <-> overlap_edge mi store nodes e /\
       ~ incl (elements nodes (e_src e)) (elements nodes (e_dst e)) /\
       ~ incl (elements nodes (e_dst e)) (elements nodes (e_src e))) /\
    Forall2 (fun e0 e => Znth sel (e_src e) = Some (into (e_src e0)) /\ Znth sel (e_dst e) = Some (into (e_dst e0)) /\
                         e_weight e = e_weight e0 /\ e_elems e = e_elems e0) es0 es.
Proof.
  intros X mi store R NE. pose proof (lti_nodes X (refined_NoDup X R)) as N.
  set (nodes := labels_to_indices X) in *.
  assert (good : forall k l, In (k, l) nodes -> l <> [] /\ StronglySorted Z.lt l) .
  { intros k l I. destruct (proj2 N k l I) as [? [? _]]. auto. }
  pose proof (nodes_disj X nodes R N) as disj.
  destruct (limit_mapping_ok nodes good disj mi store) as [lm [Elm [Llm [Hlm Kfix]]]].
  assert (KM : forall x, kept nodes x <-> maximal nodes x) by (intros x; eapply kept_spec; eassumption).
  set (keep := fun i => map_at lm i =? i).
  set (M := zmax_list lm + 1).
  assert (lmIn : forall x, 0 <= x < zlen nodes -> In (map_at lm x) lm).
  { intros x Hx. destruct (Znth_ex lm x) as [v Ev]; [now rewrite Llm|]. rewrite (Znth_map_at _ _ _ Ev). eapply Znth_In, Ev. }
  assert (lmR : forall v, In v lm -> kept nodes v).
  { intros v I. apply In_Znth in I as [x [Hx Ex]]. rewrite Llm in Hx. rewrite <- (Znth_map_at _ _ _ Ex). now apply Hlm. }
  assert (HM : 0 <= M <= zlen nodes).
  { unfold M. split.
    - destruct lm as [|v lm']; [cbn; lia|]. pose proof (zmax_list_ge (v :: lm') v (or_introl eq_refl)).
      destruct (lmR v (or_introl eq_refl)) as [? _]. lia.
    - assert (zmax_list lm <= zlen nodes - 1); [|lia]. apply zmax_list_le; [pose proof (zlen_nonneg nodes); lia|].
      intros v I. destruct (lmR v I) as [? _]. lia. }
  assert (KI : forall x, kept nodes x <-> In x (filter keep (arange M))).
  { intros x. rewrite filter_In, In_arange. unfold keep. rewrite Z.eqb_eq. split.
    - intros K. split; [|now apply Kfix]. pose proof (proj1 K). split; [lia|].
      pose proof (zmax_list_ge lm x) as G. specialize (lmIn x (proj1 K)). rewrite (Kfix x K) in lmIn. specialize (G lmIn). unfold M. lia.
    - intros [Hx E]. rewrite <- E. apply Hlm. lia. }
  set (es0 := fst (generate_edge_data mi store true nodes)).
  assert (ESR : forall e, In e es0 -> (0 <= e_src e < zlen nodes) /\ (0 <= e_dst e < zlen nodes)).
  { intros e I. unfold es0 in I. rewrite generate_edges in I. apply edges_In in I as [k1 [l1 [k2 [l2 [inter [_ [E1 [E2 _]]]]]]]].
    apply Znth_Some_lt in E1, E2. lia. }
  exists nodes, (map_at lm), (filter keep (arange M)),
    (map (first_mapped nodes lm) (filter keep (arange M))), es0,
    (map (remap (kept_rank keep)) (map (remap (map_at lm)) es0)).
  split; [|split; [exact N|]].
  { rewrite nerve_unfold by assumption. fold nodes. fold es0. rewrite Elm.
    unfold contract_vertices, delete_vertices. fold keep. fold M. f_equal. f_equal.
    - rewrite mapi_tabZ by apply HM. apply (flat_map_keep keep).
    - f_equal. assert (G : forall l, (forall e, In e l -> In e es0) ->
        filter (fun e => keep (e_src e) && keep (e_dst e)) (map (remap (map_at lm)) l) = map (remap (map_at lm)) l).
      { induction l as [|e l IH]; intros S; [reflexivity|]. cbn [map filter remap e_src e_dst].
        destruct (ESR e (S e (or_introl eq_refl))) as [H1 H2]. unfold keep at 1 2.
        rewrite (Kfix _ (proj1 (Hlm _ H1))), (Kfix _ (proj1 (Hlm _ H2))), !Z.eqb_refl. cbn [andb]. f_equal. apply IH. intros; apply S; now right. }
      apply G. auto. }
  split; [apply sorted_filter, sorted_arange|].
  split; [intros x; now rewrite <- KI|].
  split. { intros x Hx. destruct (Hlm x Hx) as [K I]. split; [now apply KI|exact I]. }
  split. { intros x Hx. now apply Kfix, KI. }
  split.
  { assert (G : forall l, (forall k, In k l -> kept nodes k) -> Forall2 (fun k v => exists x nd, 0 <= x /\ Znth nodes x = Some nd /\ v = Some nd /\ map_at lm x = k /\
                        forall y, 0 <= y < x -> map_at lm y <> k) l (map (first_mapped nodes lm) l)).
    { induction l as [|k l IH]; intros H; cbn [map]; constructor; [|apply IH; intros; apply H; now right].
      assert (K := H k (or_introl eq_refl)). pose proof (lmIn k (proj1 K)) as I. rewrite (Kfix k K) in I.
      destruct (first_mapped_ok nodes lm k (eq_sym Llm) I) as [x [Hx [E [Ex Mn]]]].
      pose proof (Znth_Some_lt _ _ _ Ex) as Lx. rewrite Llm in Lx. destruct (Znth_ex nodes x Lx) as [nd En].
      exists x, nd. rewrite E, En. split; [assumption|]. split; [reflexivity|]. split; [reflexivity|].
      split; [now apply Znth_map_at|]. intros y Hy C. apply (Mn y Hy).
      destruct (Znth_ex lm y) as [v Ev]; [rewrite Llm; lia|]. rewrite (Znth_map_at _ _ _ Ev) in C. congruence. }
    apply G. intros k Hk. now apply KI. }
  split; [unfold es0; rewrite generate_edges; apply edges_sorted|].
  split.
  { intros e. unfold es0. rewrite generate_edges, edges_In. unfold overlap_edge, elements. split.
    - intros [k1 [l1 [k2 [l2 [inter [Hij [E1 [E2 [F [C [Ct H]]]]]]]]]]]. rewrite E1, E2.
      destruct (Ct eq_refl) as [C1 C2]. rewrite (common_unique _ _ _ C) in C1, C2.
      destruct (inter_len l1 l2) as [P2 P1]; [now apply (good k1 l1), Znth_In with (e_src e)|now apply (good k2 l2), Znth_In with (e_dst e)|].
      split; [exists k1, l1, k2, l2, inter; tauto|]. split; intros I; [apply C1; now apply P1|apply C2; now apply P2].
    - intros [[k1 [l1 [k2 [l2 [inter [Hij [E1 [E2 [F [C H]]]]]]]]]] [I1 I2]]. rewrite E1, E2 in I1, I2.
      destruct (inter_len l1 l2) as [P2 P1]; [now apply (good k1 l1), Znth_In with (e_src e)|now apply (good k2 l2), Znth_In with (e_dst e)|].
      exists k1, l1, k2, l2, inter. rewrite <- (common_unique _ _ _ C) in P1, P2. repeat (split; [assumption|]). split; [|exact H].
      intros _. split; [intros Q; now apply I1, P1|intros Q; now apply I2, P2]. }
  assert (G : forall l, (forall e, In e l -> In e es0) -> Forall2 (fun e0 e => Znth (filter keep (arange M)) (e_src e) = Some (map_at lm (e_src e0)) /\
      Znth (filter keep (arange M)) (e_dst e) = Some (map_at lm (e_dst e0)) /\ e_weight e = e_weight e0 /\ e_elems e = e_elems e0)
      l (map (remap (kept_rank keep)) (map (remap (map_at lm)) l))).
  { induction l as [|e l IH]; intros S; cbn [map]; constructor; [|apply IH; intros; apply S; now right].
    destruct (ESR e (S e (or_introl eq_refl))) as [H1 H2]. cbn [remap e_src e_dst e_weight e_elems].
    assert (Q : forall x, 0 <= x < zlen nodes -> Znth (filter keep (arange M)) (kept_rank keep (map_at lm x)) = Some (map_at lm x)).
    { intros x Hx. pose proof (proj1 (Hlm x Hx)) as K. apply KI in K. apply filter_In in K as [K1 K2]. apply In_arange in K1.
      now apply kept_rank_pos. }
    auto. }
  apply G. auto.
Qed.
(** A maximal node does not keep its own samples when a smaller one with a lower
    number is merged into it: here sample 1 is in no vertex of the graph. *)
Theorem contract_keeps_samples_refuted :
  exists X vs es, refined X /\ nerve_fit_transform 1 false true X = Ok (vs, es) /\
    exists s k, has_label X s k /\ forall id l, In (Some (id, l)) vs -> ~ In s l.
Proof.
  exists [[(0, 0); (1, 0)]; [(1, 0)]], [Some ((0, 0), [0])], []. split; [|split; [reflexivity|]].
  - intros s [<-|[<-|[]]]; repeat constructor; cbn; intuition discriminate.
  - exists 1, (1, 0). split; [exists [(1, 0)]; split; [reflexivity|now left]|].
    intros id l [E|[]]. injection E as <- <-. cbn. intuition discriminate.
Qed.
(** The contracted graph can have self-loops. *)
Theorem contract_no_loops_refuted :
  exists X vs es e, refined X /\ nerve_fit_transform 1 false true X = Ok (vs, es) /\
    In e es /\ e_src e = e_dst e.
Proof.
  exists [[(0, 0); (2, 0)]; [(0, 0); (1, 0); (2, 0)]; [(1, 0); (2, 0)]].
  eexists _, _, _. split; [|split; [reflexivity|]].
  - intros s [<-|[<-|[<-|[]]]]; repeat constructor; cbn; intuition discriminate.
  - split; [now left|reflexivity].
Qed.
Example contract_ex : nerve_fit_transform 1 true true
  [[(0, 0)]; [(0, 0); (1, 0)]; [(0, 0); (1, 0); (2, 0)]; [(2, 0)]] =
  Ok ([Some ((0, 0), [0; 1; 2]); Some ((2, 0), [2; 3])],
      [Edge 0 1 1 (Some [2]); Edge 0 1 1 (Some [2])]).
Proof. reflexivity. Qed.
Print Assumptions nerve_contract_spec.

(** ** C47: Mapper loses no sample *)
Lemma portion_ex {A} pre (X : list (list A)) rel :
  (forall p, In p rel -> 0 <= p < zlen X) -> (pre = true -> forall r, In r X -> zlen r = zlen X) ->
  exists Y, portion pre X rel Y /\ zlen Y = zlen rel.
Proof.
  intros H Sq. destruct (picks_ex X rel H) as [rows P]. destruct pre.
  - assert (G : forall rws, (forall r, In r rws -> In r X) -> exists Y, Forall2 (fun r y => picks r rel y) rws Y).
    { induction rws as [|r rws IH]; intros S; [exists []; constructor|].
      destruct IH as [Y F]; [intros; apply S; now right|].
      destruct (picks_ex r rel) as [y Py]; [intros p Hp; rewrite (Sq eq_refl r) by (apply S; now left); now apply H|].
      exists (y :: Y). now constructor. }
    destruct (G rows) as [Y F].
    { intros r Hr. apply In_Znth in Hr as [q [Hq Eq]]. destruct (Znth_ex rel q) as [p Ep].
      { now rewrite (Forall2_zlen _ _ _ P). }
      pose proof (Forall2_Znth _ _ _ _ _ _ P Ep Eq) as E. now apply Znth_In in E. }
    exists Y. split; [now exists rows|]. now rewrite (Forall2_zlen _ _ _ P), (Forall2_zlen _ _ _ F).
  - exists rows. split; [exact P|]. now rewrite (Forall2_zlen _ _ _ P).
Qed.
(** Whatever clusterer is used, as long as it labels every sample it is given,
    and in whatever order the pullback sets are clustered: every sample lies in a
    node; it lies in exactly one node of each pullback set containing it and in no
    node of the others; the edges are as in the nerve. *)
Theorem mapper_no_sample_lost : forall A sched p st xs pre
  (clusterer : list (list A) -> option (list Z) -> res (list Z)) X mi store st' cols,
  valid_cover p -> zlen X = zlen xs -> (pre = true -> forall r, In r X -> zlen r = zlen X) ->
  (forall Y, exists ls, clusterer Y None = Ok ls /\ zlen ls = zlen Y) ->
  cover_fit_transform p st (D1 xs) = Ok (st', cols) ->
  Permutation sched (arange (zlen cols)) ->
  exists nodes es,
    mapper sched p st xs pre clusterer X mi store false = Ok (map Some nodes, es) /\
    NoDup (map fst nodes) /\
    (forall s, 0 <= s < zlen xs -> exists k l, In (k, l) nodes /\ In s l) /\
    (forall s i c, Znth cols i = Some c -> Znth c s = Some true ->
       exists! k, fst k = i /\ exists l, In (k, l) nodes /\ In s l) /\
    (forall k l s, In (k, l) nodes -> In s l ->
       exists c, Znth cols (fst k) = Some c /\ Znth c s = Some true) /\
    ordered_edges es /\
    forall e, In e es <-> overlap_edge mi store nodes e.
Proof.
  intros A sched p st xs pre clusterer X mi store st' cols V LX Sq Hc Ef P.
  assert (NE : xs <> []).
  { intros ->. destruct (cover_rejects p (D1 [])) as [_ R]; [now left|]. rewrite R in Ef. discriminate. }
  assert (HX : column_of (D1 xs) xs). { split; [assumption|now left]. }
  pose proof (cover_fit_transform_same p st (D1 xs)) as S. rewrite Ef in S. cbn [rmap snd] in S.
  destruct (cover_fit p (D1 xs)) as [s0|] eqn:Es; [|discriminate]. cbn [bind] in S.
  assert (exists I, get_fitted_intervals s0 = Ok I) as [I EI].
  { destruct s0 as [[a b]|]; [cbn; eauto|]. cbn in S. discriminate. }
  destruct (cover_masks_spec p (D1 xs) xs s0 I (D1 xs) xs V HX Es EI HX) as [cols' [E' [Mk Cov]]].
  assert (cols' = cols) as -> by congruence.
  set (n := zlen xs) in *.
  assert (Hn : 0 < n). { destruct xs; [easy|]. unfold n. rewrite zlen_cons. pose proof (zlen_nonneg xs). lia. }
  assert (Lc : forall c, In c cols -> zlen c = n).
  { intros c Ic. destruct Mk as [all [F [sel [_ [F2 _]]]]].
    apply In_Znth in Ic as [q [Hq Eq]]. destruct (Znth_ex sel q) as [i Ei]; [now rewrite (Forall2_zlen _ _ _ F2)|].
    pose proof (Forall2_Znth _ _ _ _ _ _ F2 Ei Eq) as Ec. cbn beta in Ec.
    destruct (Znth_ex (map inside I) i) as [T ET]. { rewrite (Forall2_zlen _ _ _ F). now apply Znth_Some_lt in Ec. }
    pose proof (Forall2_Znth _ _ _ _ _ _ F ET Ec) as D. symmetry. exact (Forall2_zlen _ _ _ D). }
  assert (NC : cols <> []). { destruct (Cov 0) as [c [Ic _]]; [lia|]. intros ->. destruct Ic. }
  destruct (parallel_clustering_spec pre false clusterer None X sched n cols Hn LX NC P) as [labels [El [Ll Hl]]].
  { intros c Ic. split; [now apply Lc|]. pose proof (flatnonzero_members c) as M.
    assert (R : forall q, In q (flatnonzero c) -> 0 <= q < zlen X).
    { intros q Hq. apply M in Hq. apply Znth_Some_lt in Hq. rewrite LX. now rewrite (Lc c Ic) in Hq. }
    destruct (portion_ex pre X (flatnonzero c) R Sq) as [Y [Po LY]]. destruct (Hc Y) as [ls [E L]].
    exists (flatnonzero c), ls, Y, None. split; [exact M|]. split; [exact Po|]. split; [exact Logic.I|]. split; [exact E|congruence]. }
  assert (R : refined labels).
  { intros t It. apply In_Znth in It as [s [_ Et]]. apply sorted_lt_NoDup. now apply (Hl s t). }
  assert (Lab : forall s i c, Znth cols i = Some c -> Znth c s = Some true -> exists l, has_label labels s (i, l)).
  { intros s i c Ei Ec. pose proof (flatnonzero_members c) as M. pose proof (Znth_Some_lt _ _ _ Ec) as Hs.
    rewrite (Lc c (Znth_In _ _ _ Ei)) in Hs. destruct (Znth_ex labels s) as [t Et]; [now rewrite Ll|].
    assert (Rg : forall q, In q (flatnonzero c) -> 0 <= q < zlen X).
    { intros q Hq. apply M in Hq. apply Znth_Some_lt in Hq. rewrite LX. now rewrite (Lc c (Znth_In _ _ _ Ei)) in Hq. }
    destruct (portion_ex pre X (flatnonzero c) Rg Sq) as [Y [Po LY]]. destruct (Hc Y) as [ls [E L]].
    apply M in Ec. apply In_Znth in Ec as [q [Hq Eq]]. destruct (Znth_ex ls q) as [l Elq]; [lia|].
    exists l, t. split; [assumption|]. apply (proj2 (Hl s t Et)). exists c, (flatnonzero c), ls, q.
    split; [assumption|]. split; [|auto].
    exists Y, None. split; [exact M|]. split; [exact Po|]. split; [exact Logic.I|]. split; [exact E|congruence]. }
  assert (Lab' : forall s k, has_label labels s k -> exists c, Znth cols (fst k) = Some c /\ Znth c s = Some true).
  { intros s [i l] [t [Et It]]. apply (proj2 (Hl s t Et)) in It as [c [rel [ls [q [Ec [C [Eq _]]]]]]].
    exists c. split; [exact Ec|]. destruct C as [Y [w [M _]]]. apply M. eapply Znth_In, Eq. }
  assert (NCc : concat labels <> []).
  { destruct (Cov 0) as [c [Ic Ec]]; [lia|]. apply In_Znth in Ic as [i [_ Ei]]. destruct (Lab 0 i c Ei Ec) as [l Hlab].
    apply has_label_concat in Hlab. intros E. rewrite E in Hlab. destruct Hlab. }
  destruct (nerve_spec labels mi store (refined_NoDup _ R) NCc) as [nodes [es [En [N [Oe He]]]]].
  assert (NI : forall s k, (exists l, In (k, l) nodes /\ In s l) <-> has_label labels s k).
  { intros s k. split.
    - intros [l [Il Is]]. now apply (proj2 N k l Il).
    - intros H. pose proof (has_label_concat _ _ _ H) as Ik. apply first_occ_In in Ik. rewrite <- (proj1 N) in Ik.
      apply in_map_iff in Ik as [[k' l] [Ek Ik]]. cbn in Ek. subst k'. exists l. split; [assumption|]. now apply (proj2 N k l Ik). }
  exists nodes, es. split.
  { unfold mapper. rewrite Ef. cbn [bind snd]. fold n. rewrite El. cbn [bind]. exact En. }
  split; [rewrite (proj1 N); apply first_occ_NoDup|].
  split.
  { intros s Hs. destruct (Cov s Hs) as [c [Ic Ec]]. apply In_Znth in Ic as [i [_ Ei]]. destruct (Lab s i c Ei Ec) as [l H].
    apply NI in H as [l' [H1 H2]]. eauto. }
  split.
  { intros s i c Ei Ec. destruct (Lab s i c Ei Ec) as [l H]. exists (i, l). split; [split; [reflexivity|now apply NI]|].
    intros [i' l'] [Ei' H']. cbn in Ei'. subst i'. apply NI in H'.
    destruct H as [t [Et It]]. destruct H' as [t' [Et' It']]. assert (t' = t) as -> by congruence.
    pose proof (R t (Znth_In _ _ _ Et)) as D. clear -D It It'. induction t as [|[a b] t IH]; [destruct It|].
    cbn in D. inversion D as [|? ? Nn D']; subst. destruct It as [It|It], It' as [It'|It']; auto.
    - congruence.
    - injection It as -> ->. exfalso. apply Nn. now apply (in_map fst) in It'.
    - injection It' as -> ->. exfalso. apply Nn. now apply (in_map fst) in It. }
  split; [|now split].
  intros k l s Ik Is. apply Lab'. apply NI. eauto.
Qed.
(** The covers of C40-C42 meet the hypotheses: a run on five samples. *)
Definition ex_filter : list Qc := map qz [0; 1; 2; 3; 4].
Definition ex_mapper_cover := CParams Uniform 2 (Q2Qc (1 # 2)).
Example mapper_hyps : valid_cover ex_mapper_cover /\ rmap snd (cover_fit_transform ex_mapper_cover None (D1 ex_filter)) =
  Ok [[true; true; true; false; false]; [false; false; true; true; true]].
Proof. split; [split; [cbn; lia|split; reflexivity]|vm_compute; reflexivity]. Qed.
Example mapper_ex :
  mapper [1; 0] ex_mapper_cover None ex_filter false ex_clusterer [[0]; [1]; [2]; [3]; [4]] 1 true false =
  Ok (map Some [((0, 0), [0; 2]); ((0, 1), [1]); ((1, 0), [2; 4]); ((1, 1), [3])],
      [Edge 0 2 1 (Some [2])]).
Proof. vm_compute. reflexivity. Qed.
Print Assumptions mapper_no_sample_lost.
