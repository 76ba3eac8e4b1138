(** Property theorems for the parameter interface of Mapper pipelines (C49). *)
From Coq Require Import String Ascii.
From Verif Require Import Np NpFacts MParModel MParProofs MParSpec.
Open Scope Z_scope.
Open Scope string_scope.

Definition render (kw : list (keyword * est)) : list (string * est) :=
  map (fun p => (keyword_name (fst p), snd p)) kw.

(** ** Keywords at the level of a step *)
Lemma partition_keyword s sub : partition (keyword_name (s, sub)) = (name s, sub).
Proof. destruct s, sub; reflexivity. Qed.
Lemma direct_render s kw e : default e (direct (name s) (render kw)) = new_value s kw e.
Proof.
  assert (G : forall kw acc, default e (direct_from acc (name s) (render kw)) = new_value s kw (default e acc)).
  { clear kw. induction kw as [|[[s' sub] v] t IH]; intros acc; [reflexivity|]. unfold render, direct_from in *. cbn [map fold_left fst snd].
    rewrite partition_keyword, IH. cbn [new_value]. destruct sub; [reflexivity|]. destruct (String.eqb (name s) (name s')); reflexivity. }
  apply G.
Qed.
Lemma nested_render s kw : nested (name s) (render kw) = sub_values s kw.
Proof.
  unfold nested, render, sub_values. induction kw as [|[[s' sub] v] t IH]; [reflexivity|]. cbn [map flat_map fst snd].
  rewrite partition_keyword, IH. destruct sub; reflexivity.
Qed.
(** A name which is not that of a parameter. *)
Lemma direct_other k kw : (forall s, k <> name s) -> direct k (render kw) = None.
Proof.
  intros H. assert (G : forall kw, direct_from None k (render kw) = None).
  { clear kw. induction kw as [|[[s' sub] v] t IH]; [reflexivity|]. unfold render, direct_from in *. cbn [map fold_left fst snd].
    rewrite partition_keyword. destruct sub; [exact IH|]. destruct (String.eqb_spec k (name s')) as [->|]; [now elim (H s')|exact IH]. }
  apply G.
Qed.
Lemma nested_other k kw : (forall s, k <> name s) -> nested k (render kw) = [].
Proof.
  intros H. unfold nested, render. induction kw as [|[[s' sub] v] t IH]; [reflexivity|]. cbn [map flat_map fst snd].
  rewrite partition_keyword, IH. destruct sub; [|reflexivity]. destruct (String.eqb_spec k (name s')) as [->|]; [now elim (H s')|reflexivity].
Qed.

(** Keywords under a literal prefix. *)
Definition under (p : string) (kw : list (string * est)) : list (string * est) :=
  map (fun q => (p ++ "__" ++ fst q, snd q)) kw.
Definition plain (p : string) : Prop := forall s, partition (p ++ "__" ++ s) = (p, Some s).
Lemma nested_under p k kw : plain p -> nested k (under p kw) = if String.eqb k p then kw else [].
Proof.
  intros H. unfold nested, under. induction kw as [|[key v] t IH]; [now destruct (String.eqb k p)|]. cbn [map flat_map fst snd]. rewrite H, IH.
  destruct (String.eqb k p); reflexivity.
Qed.
Lemma direct_under p k kw : plain p -> direct k (under p kw) = None.
Proof.
  intros H. unfold direct, direct_from, under. induction kw as [|[key v] t IH]; [reflexivity|]. cbn [map fold_left fst snd]. now rewrite H.
Qed.
Lemma valid_under p attr fs kw : plain p -> attr <> Some p -> In p (map fst fs) -> valid attr fs (under p kw).
Proof.
  intros H Ha Hi key v I. apply in_map_iff in I. destruct I as [[k w] [E _]]. assert (Ek : key = p ++ "__" ++ k) by (cbn [fst snd] in E; congruence).
  rewrite Ek, H. auto.
Qed.

(** ** The groups of parameters *)
Inductive group := Nodes | Prepr | Clust | NerveG | Global.
Definition group_of (s : slot) : group :=
  match s with
  | Scaler | FilterFunc | Cover => Nodes
  | Preprocessing => Prepr
  | Clusterer | NJobs | Backend => Clust
  | MinIntersection | StoreEdges | ContractNodes => NerveG
  | Memory | Verbose => Global
  end.
Definition geqb (a b : group) : bool :=
  match a, b with Nodes, Nodes | Prepr, Prepr | Clust, Clust | NerveG, NerveG | Global, Global => true | _, _ => false end.
Lemma geqb_spec a b : reflect (a = b) (geqb a b).
Proof. destruct a, b; constructor; congruence. Qed.
Definition select (g : group) (kw : list (keyword * est)) := filter (fun p => geqb (group_of (fst (fst p))) g) kw.

Definition params_of (g : group) : list string :=
  match g with Nodes => nodes_params | Prepr => clust_prepr_params | Clust => clust_params | NerveG => nerve_params | Global => [] end.
Lemma startswith_group g k : g <> Global -> startswith (keyword_name k) (params_of g) = geqb (group_of (fst k)) g.
Proof. intros Hg. destruct k as [s sub]. destruct g; [| | | |easy]; destruct s, sub; reflexivity. Qed.
Lemma subset_render g kw : g <> Global -> subset_kwargs (render kw) (params_of g) = render (select g kw).
Proof.
  intros Hg. unfold subset_kwargs, render, select. induction kw as [|[k v] t IH]; [reflexivity|]. cbn [map filter fst snd].
  rewrite startswith_group by assumption. destruct (geqb (group_of (fst k)) g); cbn [map fst snd]; now rewrite IH.
Qed.
Lemma name_group s s' : group_of s <> group_of s' -> name s <> name s'.
Proof. destruct s, s'; cbn; congruence. Qed.
Lemma new_value_other g s kw e : group_of s <> g -> new_value s (select g kw) e = e.
Proof.
  intros H. unfold select. induction kw as [|[[s' sub] v] t IH]; [reflexivity|]. cbn [filter fst].
  destruct (geqb_spec (group_of s') g) as [E|E]; [|exact IH]. cbn [new_value]. destruct sub; [exact IH|].
  destruct (String.eqb_spec (name s) (name s')) as [En|]; [|exact IH]. exfalso. apply (name_group s s'); congruence.
Qed.
Lemma sub_values_other g s kw : group_of s <> g -> sub_values s (select g kw) = [].
Proof.
  intros H. unfold select, sub_values. induction kw as [|[[s' sub] v] t IH]; [reflexivity|]. cbn [filter fst].
  destruct (geqb_spec (group_of s') g) as [E|E]; [|exact IH]. cbn [flat_map]. rewrite IH. destruct sub; [|reflexivity].
  destruct (String.eqb_spec (name s) (name s')) as [En|]; [|reflexivity]. exfalso. apply (name_group s s'); congruence.
Qed.
Lemma new_value_same s kw : forall e, new_value s (select (group_of s) kw) e = new_value s kw e.
Proof.
  unfold select. induction kw as [|[[s' sub] v] t IH]; intros e; [reflexivity|]. cbn [filter fst].
  destruct (geqb_spec (group_of s') (group_of s)) as [E|E].
  - cbn [new_value]. destruct sub; [apply IH|]. destruct (String.eqb (name s) (name s')); apply IH.
  - cbn [new_value]. destruct sub; [apply IH|]. destruct (String.eqb_spec (name s) (name s')) as [En|]; [|apply IH].
    exfalso. apply (name_group s s'); congruence.
Qed.
Lemma sub_values_same s kw : sub_values s (select (group_of s) kw) = sub_values s kw.
Proof.
  unfold select, sub_values. induction kw as [|[[s' sub] v] t IH]; [reflexivity|]. cbn [filter fst].
  destruct (geqb_spec (group_of s') (group_of s)) as [E|E].
  - cbn [flat_map]. now rewrite IH.
  - cbn [flat_map]. rewrite IH. destruct sub; [|reflexivity]. destruct (String.eqb_spec (name s) (name s')) as [En|]; [|reflexivity].
    exfalso. apply (name_group s s'); congruence.
Qed.
Lemma updated_other g s kw e e' : group_of s <> g -> (updated s (select g kw) e e' <-> e' = e).
Proof. intros H. unfold updated. rewrite new_value_other, sub_values_other, sk_set_params_nil by assumption. split; congruence. Qed.
Lemma updated_same s kw e e' : updated s (select (group_of s) kw) e e' <-> updated s kw e e'.
Proof. unfold updated. now rewrite new_value_same, sub_values_same. Qed.

(** ** The calls to scikit-learn's set_params *)
Definition prefix_of (g : group) : string :=
  match g with Nodes => nodes_params_prefix | Prepr => clust_prepr_params_prefix | Clust => clust_params_prefix | NerveG => nerve_params_prefix | Global => "" end.

Lemma level_field s kw e e' :
  sk_set_params (default e (direct (name s) (render kw))) (nested (name s) (render kw)) = Ok e' <-> updated s kw e e'.
Proof. unfold updated. now rewrite direct_render, nested_render. Qed.
Lemma level_hidden k kw e e' : (forall s, k <> name s) ->
  (sk_set_params (default e (direct k (render kw))) (nested k (render kw)) = Ok e' <-> e' = e).
Proof. intros H. rewrite direct_other, nested_other by assumption. rewrite sk_set_params_nil. cbn [default]. split; congruence. Qed.
Lemma under_other p k kw e e' : plain p -> k <> p ->
  (sk_set_params (default e (direct k (under p kw))) (nested k (under p kw)) = Ok e' <-> e' = e).
Proof.
  intros H Hk. rewrite direct_under, nested_under by assumption. destruct (String.eqb_spec k p); [contradiction|].
  rewrite sk_set_params_nil. cbn [default]. split; congruence.
Qed.
Lemma under_this p kw e e' : plain p ->
  (sk_set_params (default e (direct p (under p kw))) (nested p (under p kw)) = Ok e' <-> sk_set_params e kw = Ok e').
Proof. intros H. rewrite direct_under, nested_under by assumption. rewrite String.eqb_refl. reflexivity. Qed.

Lemma Forall2_nil_iff {A B} (R : A -> B -> Prop) r : Forall2 R [] r <-> r = [].
Proof. split; [now inversion 1|intros ->; constructor]. Qed.
Lemma Forall2_cons_iff {A B} (R : A -> B -> Prop) a l r : Forall2 R (a :: l) r <-> exists b t, r = b :: t /\ R a b /\ Forall2 R l t.
Proof. split; [inversion 1; subst; eauto|intros [b [t [-> [H1 H2]]]]; now constructor]. Qed.

Ltac nodup := cbn; repeat constructor; cbn; intuition discriminate.


Lemma updated_nil g s kw e : group_of s <> g -> updated s (select g kw) e e.
Proof. intros H. now apply (updated_other g s kw e e H). Qed.
Lemma plain_pullback : plain "pullback_cover". Proof. intros s. reflexivity. Qed.
Lemma plain_map : plain "map_and_cover". Proof. intros s. reflexivity. Qed.
Lemma plain_clustering : plain "clustering". Proof. intros s. reflexivity. Qed.
Lemma plain_nerve : plain "nerve". Proof. intros s. reflexivity. Qed.

Ltac crack F :=
  repeat (apply Forall2_cons_iff in F;
          let k := fresh "k" in let e := fresh "e" in let t := fresh "t" in
          let Ek := fresh "Ek" in let Hk := fresh "Hk" in
          destruct F as [[k e] [t [-> [[Ek Hk] F]]]]; cbn [fst snd] in Ek, Hk; subst k);
  apply Forall2_nil_iff in F; subst.

Definition with_slots (f : slot -> est) := f.
Lemma valid_render attr fs g kw : (forall s, group_of s = g -> attr <> Some (name s) /\ In (name s) (map fst fs)) -> valid attr fs (render (select g kw)).
Proof.
  intros H key v I. unfold render in I. apply in_map_iff in I. destruct I as [[[s sub] w] [E I]].
  assert (Ek : key = keyword_name (s, sub)) by (cbn [fst snd] in E; congruence). rewrite Ek, partition_keyword. cbn [fst].
  apply H. unfold select in I. apply filter_In in I. destruct I as [_ I]. cbn in I. now destruct (geqb_spec (group_of s) g).
Qed.
Lemma name_inj s s' : name s = name s' -> s = s'.
Proof. destruct s, s'; cbn; congruence. Qed.

(** One level whose keywords concern the group [g]: the fields of that group are updated, the
    others stay. *)
Lemma level_ok attr fs g kw e' : NoDup (map fst fs) ->
  (forall s, group_of s = g -> attr <> Some (name s) /\ In (name s) (map fst fs)) ->
  (sk_set_params (Node attr fs) (render (select g kw)) = Ok e' <->
   exists fs', e' = Node attr fs' /\ Forall2 (fun p p' => fst p' = fst p /\
     (forall s, fst p = name s -> group_of s = g -> updated s kw (snd p) (snd p')) /\
     ((forall s, fst p = name s -> group_of s <> g) -> snd p' = snd p)) fs fs').
Proof.
  intros N HV. rewrite sk_set_params_ok by assumption.
  assert (Hfield : forall p p' : string * est,
    (fst p' = fst p /\ sk_set_params (default (snd p) (direct (fst p) (render (select g kw)))) (nested (fst p) (render (select g kw))) = Ok (snd p')) <->
    (fst p' = fst p /\ (forall s, fst p = name s -> group_of s = g -> updated s kw (snd p) (snd p')) /\ ((forall s, fst p = name s -> group_of s <> g) -> snd p' = snd p))).
  { intros [k e] [k' e2]. cbn [fst snd]. apply and_iff_compat_l.
    assert (D : (exists s, k = name s) \/ forall s, k <> name s).
    { destruct (in_dec string_dec k (map name [Scaler; FilterFunc; Cover; Preprocessing; Clusterer; NJobs; Backend; MinIntersection; StoreEdges; ContractNodes; Memory; Verbose])) as [I|I].
      - left. apply in_map_iff in I. destruct I as [s [<- _]]. now exists s.
      - right. intros s ->. apply I. apply in_map. destruct s; cbn; tauto. }
    destruct D as [[s ->]|D].
    - rewrite level_field. destruct (geqb_spec (group_of s) g) as [<-|Hg].
      + rewrite updated_same. split.
        * intros U. split; [intros s' E _; apply name_inj in E; now subst|]. intros H. now elim (H s eq_refl).
        * intros [U _]. now apply U.
      + rewrite updated_other by assumption. split.
        * intros ->. split; [intros s' E Eg; apply name_inj in E; now subst|reflexivity].
        * intros [_ U]. apply U. intros s' E. apply name_inj in E. now subst.
    - rewrite level_hidden by assumption. split.
      + intros ->. split; [intros s E; now elim (D s)|reflexivity].
      + intros [_ U]. apply U. intros s E. now elim (D s). }
  split.
  - intros [_ [fs' [-> F]]]. exists fs'. split; [reflexivity|]. clear - F Hfield. induction F; constructor; [now apply Hfield|assumption].
  - intros [fs' [-> F]]. split; [now apply valid_render|]. exists fs'. split; [reflexivity|]. clear - F Hfield. induction F; constructor; [now apply Hfield|assumption].
Qed.

Lemma level_under attr fs p kw e' : NoDup (map fst fs) -> plain p -> attr <> Some p -> In p (map fst fs) ->
  (sk_set_params (Node attr fs) (under p kw) = Ok e' <->
   exists fs', e' = Node attr fs' /\ Forall2 (fun q q' => fst q' = fst q /\
     (fst q = p -> sk_set_params (snd q) kw = Ok (snd q')) /\ (fst q <> p -> snd q' = snd q)) fs fs').
Proof.
  intros N Hp Ha Hi. rewrite sk_set_params_ok by assumption.
  assert (Hfield : forall q q' : string * est,
    (fst q' = fst q /\ sk_set_params (default (snd q) (direct (fst q) (under p kw))) (nested (fst q) (under p kw)) = Ok (snd q')) <->
    (fst q' = fst q /\ (fst q = p -> sk_set_params (snd q) kw = Ok (snd q')) /\ (fst q <> p -> snd q' = snd q))).
  { intros [k e] [k' e2]. cbn [fst snd]. apply and_iff_compat_l. destruct (string_dec k p) as [->|Hk].
    - rewrite under_this by assumption. tauto.
    - rewrite under_other by assumption. tauto. }
  split.
  - intros [_ [fs' [-> F]]]. exists fs'. split; [reflexivity|]. clear - F Hfield. induction F; constructor; [now apply Hfield|assumption].
  - intros [fs' [-> F]]. split; [now apply valid_under|]. exists fs'. split; [reflexivity|]. clear - F Hfield. induction F; constructor; [now apply Hfield|assumption].
Qed.

(** Conclude from cracked lists. *)
Ltac same := repeat match goal with
  | H : _ /\ _ |- _ => destruct H
  | H : ?a <> ?b -> _ = _ |- _ => first [specialize (H ltac:(discriminate)) | clear H]
  | H : ?a = ?b -> sk_set_params _ _ = _ |- _ => first [specialize (H eq_refl) | clear H]
  | H : (forall s, ?k = name s -> group_of s <> ?g) -> _ |- _ =>
      first [specialize (H ltac:(let s := fresh in intros s; destruct s; cbn; discriminate)) | clear H]
  end.
Definition pick (m m' : slot -> est) (g : group) : slot -> est := fun s => if geqb (group_of s) g then m' s else m s.


Ltac slots_in := let s := fresh "s" in let E := fresh "E" in
  intros s; destruct s; cbn; intros E; try discriminate E; clear E; (split; [discriminate|tauto]).
Ltac side := first [discriminate | exact plain_pullback | exact plain_map | exact plain_clustering | exact plain_nerve |
  (match goal with |- NoDup _ => nodup | |- In _ _ => cbn; tauto end) | slots_in].
Ltac go_down F := crack F; same; subst.
Ltac slots_done := let s := fresh "s" in intros s; destruct s; try (apply updated_nil; discriminate);
    match goal with |- updated ?s _ _ _ => apply (updated_same s) end; auto.
Ltac field := split; [reflexivity|split; [first [intros E; discriminate E | intros _ | intros s Es Eg; destruct s; try discriminate Es; try discriminate Eg; clear Es Eg]
                                         | first [intros E; now elim E | reflexivity | (let H := fresh in intros H; exfalso; first [now apply (H Scaler) | now apply (H FilterFunc) | now apply (H Cover) | now apply (H Preprocessing) | now apply (H Clusterer) | now apply (H NJobs) | now apply (H Backend) | now apply (H MinIntersection) | now apply (H StoreEdges) | now apply (H ContractNodes) | now apply (H Memory) | now apply (H Verbose)])]]].

Lemma set_nodes graph h m kw t' :
  sk_set_params (mapper graph h m) (map (fun p => (prefix_of Nodes ++ fst p, snd p)) (render (select Nodes kw))) = Ok t' <->
  exists m', t' = mapper graph h m' /\ forall s, updated s (select Nodes kw) (m s) (m' s).
Proof.
  change (map (fun p => (prefix_of Nodes ++ fst p, snd p)) (render (select Nodes kw)))
    with (map (fun p : string * est => ("pullback_cover" ++ "__" ++ ("map_and_cover" ++ "__" ++ fst p), snd p)) (render (select Nodes kw))).
  replace (map (fun p : string * est => ("pullback_cover" ++ "__" ++ ("map_and_cover" ++ "__" ++ fst p), snd p)) (render (select Nodes kw)))
    with (under "pullback_cover" (under "map_and_cover" (render (select Nodes kw)))) by (unfold under; now rewrite map_map).
  unfold mapper at 1. rewrite level_under; [|destruct graph; side|side|side|side].
  split.
  - intros [fs' [-> F]]. destruct graph; cbn [app] in F; go_down F;
    match goal with H : sk_set_params (Node (Some "transformer_list") _) _ = _ |- _ => rename H into P end;
    (rewrite level_under in P; [|side|side|side|side]); destruct P as [fs1 [-> F]]; go_down F;
    match goal with H : sk_set_params (Node (Some "steps") _) _ = _ |- _ => rename H into P end;
    (rewrite level_ok in P; [|side|side]); destruct P as [fs2 [-> F]]; crack F; same;
    match goal with |- exists m', Node _ [_; _; (_, Node _ [_; _; _; _; (_, Node _ [_; _; (_, ?a); (_, ?b); (_, ?c)])]); _; _] = _ /\ _ =>
      exists (fun s => match s with Scaler => a | FilterFunc => b | Cover => c | _ => m s end)
    | |- exists m', Node _ [_; _; (_, Node _ [_; _; _; _; (_, Node _ [_; _; (_, ?a); (_, ?b); (_, ?c)])]); _] = _ /\ _ =>
      exists (fun s => match s with Scaler => a | FilterFunc => b | Cover => c | _ => m s end) end;
    subst; (split; [reflexivity|]); slots_done.
  - intros [m' [-> H]].
    assert (HN : forall s, group_of s <> Nodes -> m' s = m s) by (intros s Hs; apply (updated_other Nodes s kw); auto).
    assert (HY : forall s, group_of s = Nodes -> updated s kw (m s) (m' s)) by (intros s Hs; apply updated_same; rewrite Hs; auto).
    assert (HP : sk_set_params (Node (Some "transformer_list")
        [("n_jobs", h_n_jobs h); ("transformer_weights", h_weights h); ("verbose", h_union_verbose h);
         ("clustering_preprocessing", m Preprocessing);
         ("map_and_cover", Node (Some "steps")
            [("memory", h_memory h); ("verbose", h_verbose h);
             ("scaler", m Scaler); ("filter_func", m FilterFunc); ("cover", m Cover)])]) (under "map_and_cover" (render (select Nodes kw))) = 
       Ok (Node (Some "transformer_list")
        [("n_jobs", h_n_jobs h); ("transformer_weights", h_weights h); ("verbose", h_union_verbose h);
         ("clustering_preprocessing", m' Preprocessing);
         ("map_and_cover", Node (Some "steps")
            [("memory", h_memory h); ("verbose", h_verbose h);
             ("scaler", m' Scaler); ("filter_func", m' FilterFunc); ("cover", m' Cover)])])).
    { rewrite level_under; [|side|side|side|side]. eexists. split; [reflexivity|]. rewrite (HN Preprocessing) by discriminate.
      repeat (apply Forall2_cons; [cbn [fst snd]|]); try apply Forall2_nil; field.
      rewrite level_ok; [|side|side]. eexists. split; [reflexivity|].
      repeat (apply Forall2_cons; [cbn [fst snd]|]); try apply Forall2_nil; field; now apply HY. }
    eexists. split; [reflexivity|]. rewrite (HN Memory), (HN Verbose), (HN Clusterer), (HN NJobs), (HN Backend), (HN MinIntersection), (HN StoreEdges), (HN ContractNodes) by discriminate.
    destruct graph; cbn [app]; repeat (apply Forall2_cons; [cbn [fst snd]|]); try apply Forall2_nil; field; exact HP.
Qed.

(** What the new object says about the slots, from the specification. *)
Lemma spec_slots g kw (m m' : slot -> est) : (forall s, updated s (select g kw) (m s) (m' s)) <->
  (forall s, group_of s <> g -> m' s = m s) /\ (forall s, group_of s = g -> updated s kw (m s) (m' s)).
Proof.
  split.
  - intros H. split; intros s Hs; [now apply (updated_other g s kw)|]. apply updated_same. rewrite Hs. apply H.
  - intros [HN HY] s. destruct (geqb_spec (group_of s) g) as [E|E]; [|now apply updated_other; auto].
    rewrite <- E. apply updated_same, HY, E.
Qed.

Lemma set_prepr graph h m kw t' :
  sk_set_params (mapper graph h m) (map (fun p => (prefix_of Prepr ++ fst p, snd p)) (render (select Prepr kw))) = Ok t' <->
  exists m', t' = mapper graph h m' /\ forall s, updated s (select Prepr kw) (m s) (m' s).
Proof.
  change (map (fun p => (prefix_of Prepr ++ fst p, snd p)) (render (select Prepr kw)))
    with (under "pullback_cover" (render (select Prepr kw))).
  unfold mapper at 1. rewrite level_under; [|destruct graph; side|side|side|side].
  split.
  - intros [fs' [-> F]]. destruct graph; cbn [app] in F; go_down F;
    match goal with H : sk_set_params (Node (Some "transformer_list") _) _ = _ |- _ => rename H into P end;
    (rewrite level_ok in P; [|side|side]); destruct P as [fs2 [-> F]]; crack F; same;
    match goal with |- exists m', Node _ (_ :: _ :: (_, Node _ [_; _; _; (_, ?a); _]) :: _) = _ /\ _ =>
      exists (fun s => match s with Preprocessing => a | _ => m s end) end;
    subst; (split; [reflexivity|]); slots_done.
  - intros [m' [-> H]]. apply spec_slots in H. destruct H as [HN HY].
    eexists. split; [reflexivity|].
    rewrite (HN Memory), (HN Verbose), (HN Scaler), (HN FilterFunc), (HN Cover), (HN Clusterer), (HN NJobs), (HN Backend), (HN MinIntersection), (HN StoreEdges), (HN ContractNodes) by discriminate.
    destruct graph; cbn [app]; repeat (apply Forall2_cons; [cbn [fst snd]|]); try apply Forall2_nil; field;
    (rewrite level_ok; [|side|side]); eexists; (split; [reflexivity|]);
    repeat (apply Forall2_cons; [cbn [fst snd]|]); try apply Forall2_nil; field; now apply HY.
Qed.

Lemma set_clust graph h m kw t' :
  sk_set_params (mapper graph h m) (map (fun p => (prefix_of Clust ++ fst p, snd p)) (render (select Clust kw))) = Ok t' <->
  exists m', t' = mapper graph h m' /\ forall s, updated s (select Clust kw) (m s) (m' s).
Proof.
  change (map (fun p => (prefix_of Clust ++ fst p, snd p)) (render (select Clust kw)))
    with (under "clustering" (render (select Clust kw))).
  unfold mapper at 1. rewrite level_under; [|destruct graph; side|side|side|side].
  split.
  - intros [fs' [-> F]]. destruct graph; cbn [app] in F; go_down F;
    match goal with H : sk_set_params (Node None _) _ = _ |- _ => rename H into P end;
    (rewrite level_ok in P; [|side|side]); destruct P as [fs2 [-> F]]; crack F; same;
    match goal with |- exists m', Node _ (_ :: _ :: _ :: (_, Node _ [(_, ?a); (_, ?b); (_, ?c)]) :: _) = _ /\ _ =>
      exists (fun s => match s with Clusterer => a | NJobs => b | Backend => c | _ => m s end) end;
    subst; (split; [reflexivity|]); slots_done.
  - intros [m' [-> H]]. apply spec_slots in H. destruct H as [HN HY].
    eexists. split; [reflexivity|].
    rewrite (HN Memory), (HN Verbose), (HN Scaler), (HN FilterFunc), (HN Cover), (HN Preprocessing), (HN MinIntersection), (HN StoreEdges), (HN ContractNodes) by discriminate.
    destruct graph; cbn [app]; repeat (apply Forall2_cons; [cbn [fst snd]|]); try apply Forall2_nil; field;
    (rewrite level_ok; [|side|side]); eexists; (split; [reflexivity|]);
    repeat (apply Forall2_cons; [cbn [fst snd]|]); try apply Forall2_nil; field; now apply HY.
Qed.

Lemma set_nerve h m kw t' :
  sk_set_params (mapper true h m) (map (fun p => (prefix_of NerveG ++ fst p, snd p)) (render (select NerveG kw))) = Ok t' <->
  exists m', t' = mapper true h m' /\ forall s, updated s (select NerveG kw) (m s) (m' s).
Proof.
  change (map (fun p => (prefix_of NerveG ++ fst p, snd p)) (render (select NerveG kw)))
    with (under "nerve" (render (select NerveG kw))).
  unfold mapper at 1. rewrite level_under; [|side|side|side|side].
  split.
  - intros [fs' [-> F]]. cbn [app] in F; go_down F;
    match goal with H : sk_set_params (Node None _) _ = _ |- _ => rename H into P end;
    (rewrite level_ok in P; [|side|side]); destruct P as [fs2 [-> F]]; crack F; same;
    match goal with |- exists m', Node _ (_ :: _ :: _ :: _ :: (_, Node _ [(_, ?a); (_, ?b); (_, ?c)]) :: _) = _ /\ _ =>
      exists (fun s => match s with MinIntersection => a | StoreEdges => b | ContractNodes => c | _ => m s end) end;
    subst; (split; [reflexivity|]); slots_done.
  - intros [m' [-> H]]. apply spec_slots in H. destruct H as [HN HY].
    eexists. split; [reflexivity|].
    rewrite (HN Memory), (HN Verbose), (HN Scaler), (HN FilterFunc), (HN Cover), (HN Preprocessing), (HN Clusterer), (HN NJobs), (HN Backend) by discriminate.
    cbn [app]; repeat (apply Forall2_cons; [cbn [fst snd]|]); try apply Forall2_nil; field;
    (rewrite level_ok; [|side|side]); eexists; (split; [reflexivity|]);
    repeat (apply Forall2_cons; [cbn [fst snd]|]); try apply Forall2_nil; field; now apply HY.
Qed.

Lemma set_global graph h m kw t' :
  sk_set_params (mapper graph h m) (render (select Global kw)) = Ok t' <->
  exists m', t' = mapper graph h m' /\ forall s, updated s (select Global kw) (m s) (m' s).
Proof.
  unfold mapper at 1. rewrite level_ok; [|destruct graph; side|destruct graph; side].
  split.
  - intros [fs' [-> F]]. destruct graph; cbn [app] in F; crack F; same;
    match goal with |- exists m', Node _ ((_, ?a) :: (_, ?b) :: _) = _ /\ _ =>
      exists (fun s => match s with Memory => a | Verbose => b | _ => m s end) end;
    subst; (split; [reflexivity|]); slots_done.
  - intros [m' [-> H]]. apply spec_slots in H. destruct H as [HN HY].
    eexists. split; [reflexivity|].
    rewrite (HN MinIntersection), (HN StoreEdges), (HN ContractNodes), (HN Scaler), (HN FilterFunc), (HN Cover), (HN Preprocessing), (HN Clusterer), (HN NJobs), (HN Backend) by discriminate.
    destruct graph; cbn [app]; repeat (apply Forall2_cons; [cbn [fst snd]|]); try apply Forall2_nil; field; now apply HY.
Qed.

(** ** Removing the keywords already used *)
Lemma keyword_name_inj k k' : keyword_name k = keyword_name k' -> k = k'.
Proof.
  intros H. apply (f_equal partition) in H. destruct k as [s sub], k' as [s' sub']. rewrite 2 partition_keyword in H.
  injection H as H1 H2. apply name_inj in H1. congruence.
Qed.
Lemma lookup_In {A} k (d : list (string * A)) : In k (map fst d) -> exists v, lookup k d = Some v.
Proof.
  induction d as [|[k' v] t IH]; [easy|]. cbn. intros [->|H]; [rewrite String.eqb_refl; eauto|].
  destruct (String.eqb k k'); eauto.
Qed.
Lemma pop_all_ok {A} ks : forall d : list (string * A), NoDup ks -> (forall k, In k ks -> In k (map fst d)) ->
  pop_all ks d = Ok (filter (fun p => negb (existsb (String.eqb (fst p)) ks)) d).
Proof.
  induction ks as [|k t IH]; intros d N H.
  - cbn. f_equal. induction d as [|p d IHd]; [reflexivity|]. cbn. now rewrite <- IHd.
  - cbn [pop_all]. inversion N as [|? ? Hk Nt]. subst. destruct (lookup_In k d) as [v ->]; [apply H; now left|].
    rewrite IH; [|assumption|].
    + f_equal. clear. induction d as [|p d IHd]; [reflexivity|]. cbn [filter existsb]. rewrite (String.eqb_sym (fst p) k).
      destruct (String.eqb k (fst p)); cbn [negb orb filter]; [exact IHd|]. now rewrite IHd.
    + intros k' Ik.
      specialize (H k' (or_intror Ik)). apply in_map_iff in H. destruct H as [p [E I]]. apply in_map_iff. exists p. split; [exact E|].
      apply filter_In. split; [exact I|]. destruct (String.eqb_spec k (fst p)); [|reflexivity]. exfalso. apply Hk. congruence.
Qed.
Definition without (g : group) (kw : list (keyword * est)) := filter (fun p => negb (geqb (group_of (fst (fst p))) g)) kw.
Lemma NoDup_names kw : NoDup (map fst kw) -> NoDup (map fst (render kw)).
Proof.
  intros H. unfold render. rewrite map_map. cbn [fst]. rewrite <- (map_map fst keyword_name).
  apply FinFun.Injective_map_NoDup; [exact keyword_name_inj|exact H].
Qed.
Lemma NoDup_filter_keys f (kw : list (keyword * est)) : NoDup (map fst kw) -> NoDup (map fst (filter f kw)).
Proof.
  induction kw as [|p t IH]; [easy|]. cbn [map filter]. inversion 1. subst. destruct (f p); [|auto]. cbn. constructor; [|auto].
  intros I. apply in_map_iff in I. destruct I as [q [E I]]. apply filter_In in I. rewrite <- E in H2. apply H2, in_map, I.
Qed.
Lemma pop_group g kw : NoDup (map fst kw) ->
  pop_all (map fst (render (select g kw))) (render kw) = Ok (render (without g kw)).
Proof.
  intros N. rewrite pop_all_ok.
  - f_equal. unfold without, render at 2. rewrite <- (map_id (filter _ kw)).
    assert (G : forall l, incl l kw -> filter (fun p => negb (existsb (String.eqb (fst p)) (map fst (render (select g kw))))) (render l)
       = render (filter (fun p => negb (geqb (group_of (fst (fst p))) g)) l)).
    { induction l as [|[k v] t IH]; intros Hl; [reflexivity|]. unfold render at 2. cbn [map filter fst snd]. fold (render t).
      rewrite IH by (intros x Hx; apply Hl; now right).
      replace (existsb (String.eqb (keyword_name k)) (map fst (render (select g kw)))) with (geqb (group_of (fst k)) g).
      - destruct (geqb (group_of (fst k)) g); reflexivity.
      - destruct (geqb_spec (group_of (fst k)) g) as [E|E]; symmetry.
        + apply existsb_exists. exists (keyword_name k). split; [|apply String.eqb_refl].
          apply in_map_iff. exists (keyword_name k, v). split; [reflexivity|]. unfold render. apply in_map_iff. exists (k, v). split; [reflexivity|].
          unfold select. apply filter_In. split; [apply Hl; now left|]. cbn. now destruct (geqb_spec (group_of (fst k)) g).
        + apply Bool.not_true_is_false. intros H. apply existsb_exists in H. destruct H as [n [I En]]. apply String.eqb_eq in En. subst n.
          apply in_map_iff in I. destruct I as [[n w] [En I]]. cbn in En. subst n. unfold render in I. apply in_map_iff in I.
          destruct I as [[k' w'] [Ek I]]. assert (Ekk : keyword_name k' = keyword_name k) by (cbn in Ek; congruence). apply keyword_name_inj in Ekk. subst k'.
          unfold select in I. apply filter_In in I. destruct I as [_ I]. cbn in I. now destruct (geqb_spec (group_of (fst k)) g). }
    rewrite map_id. apply G, incl_refl.
  - apply NoDup_names, NoDup_filter_keys, N.
  - intros k I. apply in_map_iff in I. destruct I as [[n w] [En I]]. cbn in En. subst n. unfold render in I. apply in_map_iff in I.
    destruct I as [p [Ep I]]. apply filter_In in I. apply in_map_iff. exists (k, w). split; [reflexivity|]. unfold render. apply in_map_iff. exists p. tauto.
Qed.
Lemma select_without g g' kw : g <> g' -> select g (without g' kw) = select g kw.
Proof.
  intros H. unfold select, without. induction kw as [|[[s sub] v] t IH]; [reflexivity|]. cbn [filter fst].
  destruct (geqb_spec (group_of s) g') as [E|E]; cbn [negb filter fst];
  (destruct (geqb_spec (group_of s) g) as [E2|E2]; [try congruence|]); first [exact IH | f_equal; exact IH].
Qed.
Lemma set_group_ok g kw rest e e' rest' : g <> Global -> NoDup (map fst rest) -> select g rest = select g kw ->
  (set_group (prefix_of g) (render (select g kw)) (e, render rest) = Ok (e', rest') <->
   sk_set_params e (map (fun p => (prefix_of g ++ fst p, snd p)) (render (select g kw))) = Ok e' /\ rest' = render (without g rest)).
Proof.
  intros Hg N Es. pose proof (pop_group g rest N) as P. rewrite Es in P. unfold set_group.
  destruct (render (select g kw)) as [|p l] eqn:E.
  - cbn [map pop_all] in P |- *. rewrite sk_set_params_nil. assert (E' : render rest = render (without g rest)) by congruence.
    rewrite <- E'. split; [intros H; injection H as <- <-; auto|intros [H1 ->]; congruence].
  - destruct (sk_set_params e _) as [e1|x]; cbn [bind].
    + rewrite P. cbn [bind]. split; [intros H; injection H as <- <-; auto|intros [H ->]; congruence].
    + split; [discriminate|intros [H _]; discriminate].
Qed.

(** ** set_params *)
Lemma bind_ok {A B} (x : res A) (f : A -> res B) r : bind x f = Ok r -> exists a, x = Ok a /\ f a = Ok r.
Proof. destruct x as [a|]; [now exists a|discriminate]. Qed.
Lemma NoDup_without g kw : NoDup (map fst kw) -> NoDup (map fst (without g kw)).
Proof. apply NoDup_filter_keys. Qed.
Lemma rest_global kw : without NerveG (without Clust (without Prepr (without Nodes kw))) = select Global kw.
Proof.
  unfold without, select. induction kw as [|[[s sub] v] t IH]; [reflexivity|]. cbn [filter fst].
  destruct s; cbn [group_of geqb negb filter fst]; first [exact IH | f_equal; exact IH].
Qed.

Lemma set_nerve_graph graph h m kw t' :
  sk_set_params (mapper graph h m) (map (fun p => (prefix_of NerveG ++ fst p, snd p)) (render (select NerveG kw))) = Ok t' <->
  (graph = false -> forall s sub v, In ((s, sub), v) kw -> is_nerve_slot s = false) /\
  exists m', t' = mapper graph h m' /\ forall s, updated s (select NerveG kw) (m s) (m' s).
Proof.
  destruct graph; [rewrite set_nerve; split; [intros H; split; [discriminate|exact H]|tauto]|].
  destruct (select NerveG kw) as [|[[s sub] v] l] eqn:E.
  - cbn [render map]. rewrite sk_set_params_nil. split.
    + intros H. split.
      * intros _ s sub v I. destruct (is_nerve_slot s) eqn:Es; [|reflexivity]. exfalso.
        assert (I' : In ((s, sub), v) (select NerveG kw)) by (apply filter_In; split; [exact I|]; now destruct s).
        now rewrite E in I'.
      * exists m. split; [congruence|]. intros s. unfold updated. cbn [new_value sub_values flat_map]. apply sk_set_params_nil.
    + intros [_ [m' [-> H]]]. f_equal. unfold mapper.
      assert (Hm : forall s, m' s = m s) by (intros s; specialize (H s); unfold updated in H; cbn [new_value sub_values flat_map] in H; rewrite sk_set_params_nil in H; congruence).
      now rewrite !Hm.
  - assert (I' : In ((s, sub), v) (select NerveG kw)) by (rewrite E; now left). apply filter_In in I'. destruct I' as [I Es]. cbn in Es.
    split.
    + intros H. exfalso. unfold mapper in H. apply sk_set_params_ok in H; [|side]. destruct H as [V _].
      specialize (V ("nerve" ++ "__" ++ keyword_name (s, sub)) v). 
      change (partition ("nerve" ++ "__" ++ keyword_name (s, sub))) with ("nerve", Some (keyword_name (s, sub))) in V.
      destruct V as [_ V]; [apply in_map_iff; exists (keyword_name (s, sub), v); split; [reflexivity|]; unfold render; apply in_map_iff; exists ((s, sub), v); split; [reflexivity|now left]|].
      cbn in V. intuition discriminate.
    + intros [G _]. specialize (G eq_refl s sub v I). now destruct s.
Qed.

(** C49: on Mapper-level names, each given once and in any combination, set_params gives the
    pipeline in which each parameter is the object given for it, if any, and in that object the
    nested parameters have been set; all the other parameters stay.  Without the graph step there is
    no parameter of the nerve to set. *)
Theorem mapper_set_params_spec graph h m kw t' : NoDup (map fst kw) ->
  (mapper_set_params (mapper graph h m) (map (fun p => (keyword_name (fst p), snd p)) kw) = Ok t' <->
   (graph = false -> forall s sub v, In ((s, sub), v) kw -> is_nerve_slot s = false) /\
   exists m', t' = mapper graph h m' /\ forall s, updated s kw (m s) (m' s)).
Proof.
  intros N. fold (render kw). unfold mapper_set_params.
  change nodes_params with (params_of Nodes). change clust_prepr_params with (params_of Prepr).
  change clust_params with (params_of Clust). change nerve_params with (params_of NerveG).
  rewrite !subset_render by discriminate.
  change nodes_params_prefix with (prefix_of Nodes). change clust_prepr_params_prefix with (prefix_of Prepr).
  change clust_params_prefix with (prefix_of Clust). change nerve_params_prefix with (prefix_of NerveG).
  assert (N1 := NoDup_without Nodes _ N). assert (N2 := NoDup_without Prepr _ N1). assert (N3 := NoDup_without Clust _ N2).
  assert (S1 : select Nodes kw = select Nodes kw) by reflexivity.
  assert (S2 : select Prepr (without Nodes kw) = select Prepr kw) by (apply select_without; discriminate).
  assert (S3 : select Clust (without Prepr (without Nodes kw)) = select Clust kw) by (rewrite !select_without; [reflexivity|discriminate..]).
  assert (S4 : select NerveG (without Clust (without Prepr (without Nodes kw))) = select NerveG kw) by (rewrite !select_without; [reflexivity|discriminate..]).
  split.
  - intros H. apply bind_ok in H. destruct H as [[e1 r1] [H1 H]]. apply bind_ok in H. destruct H as [[e2 r2] [H2 H]].
    apply bind_ok in H. destruct H as [[e3 r3] [H3 H]]. apply bind_ok in H. destruct H as [[e4 r4] [H4 H]]. cbn [fst snd] in H.
    apply set_group_ok in H1; [|discriminate|assumption|assumption]. destruct H1 as [H1 ->].
    apply set_group_ok in H2; [|discriminate|assumption|assumption]. destruct H2 as [H2 ->].
    apply set_group_ok in H3; [|discriminate|assumption|assumption]. destruct H3 as [H3 ->].
    apply set_group_ok in H4; [|discriminate|assumption|assumption]. destruct H4 as [H4 ->].
    rewrite rest_global in H.
    apply set_nodes in H1. destruct H1 as [m1 [-> H1]]. apply set_prepr in H2. destruct H2 as [m2 [-> H2]].
    apply set_clust in H3. destruct H3 as [m3 [-> H3]]. apply set_nerve_graph in H4. destruct H4 as [G [m4 [-> H4]]].
    apply set_global in H. destruct H as [m5 [-> H]].
    apply spec_slots in H1, H2, H3, H4, H. split; [exact G|]. exists m5. split; [reflexivity|].
    destruct H1 as [A1 B1], H2 as [A2 B2], H3 as [A3 B3], H4 as [A4 B4], H as [A5 B5].
    intros s. destruct (group_of s) eqn:E.
    + rewrite A5, A4, A3, A2 by congruence. auto.
    + rewrite A5, A4, A3 by congruence. rewrite <- (A1 s) by congruence. auto.
    + rewrite A5, A4 by congruence. rewrite <- (A1 s), <- (A2 s) by congruence. auto.
    + rewrite A5 by congruence. rewrite <- (A1 s), <- (A2 s), <- (A3 s) by congruence. auto.
    + rewrite <- (A1 s), <- (A2 s), <- (A3 s), <- (A4 s) by congruence. auto.
  - intros [G [m' [-> H]]].
    set (m1 := fun s => match group_of s with Nodes => m' s | _ => m s end).
    set (m2 := fun s => match group_of s with Nodes | Prepr => m' s | _ => m s end).
    set (m3 := fun s => match group_of s with Nodes | Prepr | Clust => m' s | _ => m s end).
    set (m4 := fun s => match group_of s with Nodes | Prepr | Clust | NerveG => m' s | _ => m s end).
    assert (P1 : set_group (prefix_of Nodes) (render (select Nodes kw)) (mapper graph h m, render kw) = Ok (mapper graph h m1, render (without Nodes kw))).
    { apply set_group_ok; [discriminate|assumption|assumption|]. split; [|reflexivity]. apply set_nodes. exists m1. split; [reflexivity|].
      apply spec_slots. split; intros s E; unfold m1; [destruct (group_of s); congruence|rewrite E; apply H]. }
    rewrite P1. cbn [bind].
    assert (P2 : set_group (prefix_of Prepr) (render (select Prepr kw)) (mapper graph h m1, render (without Nodes kw)) = Ok (mapper graph h m2, render (without Prepr (without Nodes kw)))).
    { apply set_group_ok; [discriminate|assumption|assumption|]. split; [|reflexivity]. apply set_prepr. exists m2. split; [reflexivity|].
      apply spec_slots. split; intros s E; unfold m1, m2; [destruct (group_of s); congruence|rewrite E; apply H]. }
    rewrite P2. cbn [bind].
    assert (P3 : set_group (prefix_of Clust) (render (select Clust kw)) (mapper graph h m2, render (without Prepr (without Nodes kw))) = Ok (mapper graph h m3, render (without Clust (without Prepr (without Nodes kw))))).
    { apply set_group_ok; [discriminate|assumption|assumption|]. split; [|reflexivity]. apply set_clust. exists m3. split; [reflexivity|].
      apply spec_slots. split; intros s E; unfold m2, m3; [destruct (group_of s); congruence|rewrite E; apply H]. }
    rewrite P3. cbn [bind].
    assert (P4 : set_group (prefix_of NerveG) (render (select NerveG kw)) (mapper graph h m3, render (without Clust (without Prepr (without Nodes kw)))) = Ok (mapper graph h m4, render (without NerveG (without Clust (without Prepr (without Nodes kw)))))).
    { apply set_group_ok; [discriminate|assumption|assumption|]. split; [|reflexivity]. apply set_nerve_graph. split; [exact G|]. exists m4. split; [reflexivity|].
      apply spec_slots. split; intros s E; unfold m3, m4; [destruct (group_of s); congruence|rewrite E; apply H]. }
    rewrite P4. cbn [bind fst snd]. rewrite rest_global. apply set_global. exists m'. split; [reflexivity|].
    apply spec_slots. split; intros s E; unfold m4; [destruct (group_of s); congruence|rewrite E; apply H].
Qed.

Print Assumptions mapper_set_params_spec.
