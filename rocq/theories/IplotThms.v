(** C74: interactive Mapper plots: parameters. *)
From Coq Require Import Ascii String.
From Verif Require Import Np NpFacts Fl FlFacts ColorTypes ColorModel MplotTypes MplotModel IplotTypes IplotModel IplotSpec.
Open Scope Z_scope.

(** ** Dictionaries *)
Lemma dget_In d k v : dget d k = Some v -> In (k, v) d.
Proof. induction d as [|[k' v'] d IH]; [discriminate|]. cbn [dget]. destruct (String.eqb_spec k k') as [->|N]; [intros [= ->]; now left|]. intros H. right. now apply IH. Qed.
Lemma In_dget_ex d k v : In (k, v) d -> exists v', dget d k = Some v'.
Proof. induction d as [|[k' v'] d IH]; [intros []|]. cbn [dget]. destruct (String.eqb_spec k k') as [->|N]; [eauto|]. intros [[= -> ->]|I]; [contradiction|]. now apply IH. Qed.
Lemma dict_dget d k v : dict d -> value_of d k v <-> dget d k = Some v.
Proof.
  intros D. split; [|apply dget_In]. unfold value_of, dict in *. induction d as [|[k' v'] d IH]; [intros []|]. cbn [map fst] in D. inversion D as [|? ? N D']; subst. cbn [dget]. intros [[= -> ->]|I].
  - now rewrite String.eqb_refl.
  - destruct (String.eqb_spec k k') as [->|_]; [|now apply IH]. exfalso. apply N. apply in_map_iff. now exists (k', v).
Qed.
Lemma dset_keys d k v : map fst (dset d k v) = map fst d.
Proof. induction d as [|[k' v'] d IH]; [reflexivity|]. cbn [dset]. destruct (String.eqb k k'); cbn [map fst]; [reflexivity|now rewrite IH]. Qed.
Lemma dget_dset d k v k' : dget (dset d k v) k' = if String.eqb k' k then match dget d k with None => None | Some _ => Some v end else dget d k'.
Proof.
  induction d as [|[k0 v0] d IH]; [now destruct (String.eqb k' k)|]. cbn [dset dget]. destruct (String.eqb_spec k k0) as [->|N].
  - cbn [dget]. destruct (String.eqb k' k0); reflexivity.
  - cbn [dget]. rewrite IH. destruct (String.eqb_spec k' k0) as [->|N']; [|reflexivity]. destruct (String.eqb_spec k0 k) as [->|_]; [contradiction|reflexivity].
Qed.
Lemma dget_keys d d' k : map fst d = map fst d' -> dget d k = None -> dget d' k = None.
Proof. revert d'. induction d as [|[k0 v0] d IH]; intros [|[k1 v1] d'] E; try discriminate; [reflexivity|]. cbn [map fst] in E. injection E as -> E. cbn [dget]. destruct (String.eqb k k1); [discriminate|now apply IH]. Qed.
Lemma dget_filter (p : string * pval -> bool) d k v : dict d -> (dget (filter p d) k = Some v <-> dget d k = Some v /\ p (k, v) = true).
Proof.
  intros D. assert (D' : dict (filter p d)).
  { unfold dict in *. induction d as [|kv d IH]; [constructor|]. cbn [map] in D. inversion D as [|? ? N D']; subst. cbn [filter]. destruct (p kv); [|now apply IH]. cbn [map]. constructor; [|now apply IH]. intros I. apply N. apply in_map_iff in I. destruct I as [x [E I]]. apply filter_In in I. apply in_map_iff. exists x. tauto. }
  rewrite <- (dict_dget _ _ _ D), <- (dict_dget _ _ _ D'). unfold value_of. apply filter_In.
Qed.
Lemma dget_app a b k : dget (a ++ b) k = match dget a k with Some v => Some v | None => dget b k end.
Proof. induction a as [|[k' v'] a IH]; [reflexivity|]. cbn [app dget]. now destruct (String.eqb k k'). Qed.

(** ** Types *)
Lemma accepts_iff a b : accepts a b = true <-> same_type a b.
Proof. split; [destruct a, b; try discriminate; constructor|now intros []]. Qed.
Lemma pval_eqb_iff a b : pval_eqb a b = true <-> a = b.
Proof.
  split; [|intros ->; destruct b; cbn; [apply Z.eqb_refl|destruct (Qceqb_spec q q); congruence|apply Bool.eqb_reflx|apply String.eqb_refl|apply String.eqb_refl]].
  destruct a, b; cbn; intros H; try discriminate; f_equal; [now apply Z.eqb_eq|now destruct (Qceqb_spec q q0)|now apply Bool.eqb_prop|now apply String.eqb_eq|now apply String.eqb_eq].
Qed.
Lemma same_type_refl_l a b : same_type a b -> same_type a a.
Proof. intros []; constructor. Qed.
Lemma same_type_trans a b c : same_type a b -> same_type b c -> same_type a c.
Proof. intros [] H; inversion H; constructor. Qed.
Lemma same_type_sym a b : same_type a b -> same_type b a.
Proof. intros []; constructor. Qed.
Definition typed (v : pval) : bool := is_int v || is_float v || is_str v.
Lemma typed_iff v : typed v = true <-> same_type v v.
Proof. split; [destruct v; try discriminate; constructor|intros H; inversion H; reflexivity]. Qed.

(** ** Editable parameters *)
Definition is_nerve (k : string) : bool := String.eqb k "min_intersection" || String.eqb k "contract_nodes".
Definition is_step (k : string) : bool := String.prefix "cover__" k || String.prefix "clusterer__" k.
Lemma nerve_not_step k : is_nerve k = true -> is_step k = false.
Proof. unfold is_nerve. intros H. apply orb_true_iff in H. destruct H as [H|H]; apply String.eqb_eq in H; subst k; reflexivity. Qed.
Definition eb (k : string) (v : pval) : bool := (is_step k || is_nerve k) && typed v.
Definition pb (k : string) (v : pval) : bool := is_step k && typed v || is_nerve k && int_bool v.
Lemma pb_eb k v : pb k v = true -> eb k v = true.
Proof. unfold pb, eb. destruct (is_step k), (is_nerve k), v; cbn; auto. Qed.
Lemma editable_iff d k v : dict d -> dget d k = Some v -> (editable d k <-> eb k v = true).
Proof.
  intros D E. unfold editable, eb, is_step, is_nerve. split.
  - intros [R [v' [V T]]]. apply (dict_dget d k v' D) in V. assert (v' = v) by congruence. subst v'. apply andb_true_iff. split; [|now apply typed_iff].
    destruct R as [->|[->|[->| ->]]]; rewrite ?orb_true_r; reflexivity.
  - intros H. apply andb_true_iff in H. destruct H as [R T]. split.
    + apply orb_true_iff in R. destruct R as [R|R]; apply orb_true_iff in R; destruct R as [R|R]; auto; apply String.eqb_eq in R; auto.
    + exists v. split; [now apply dict_dget|now apply typed_iff].
Qed.
Lemma passed_iff d k v : dict d -> dget d k = Some v -> (passed_on d k <-> pb k v = true).
Proof.
  intros D E. unfold passed_on. rewrite (editable_iff d k v D E). unfold pb, eb. split.
  - intros [H R]. destruct (is_nerve k) eqn:N.
    + rewrite (nerve_not_step k N) in *. cbn in *. unfold is_nerve in N. apply orb_true_iff in N. destruct (R ltac:(destruct N as [N|N]; apply String.eqb_eq in N; auto) v) as [[z ->]|[b ->]]; try reflexivity. now apply dict_dget.
    + rewrite orb_false_r in H. rewrite H. reflexivity.
  - intros H. split; [apply pb_eb; exact H|]. intros N v' V. apply (dict_dget d k v' D) in V. assert (v' = v) by congruence. subst v'.
    assert (IN : is_nerve k = true) by (destruct N as [->| ->]; reflexivity). rewrite (nerve_not_step k IN), IN in H. cbn in H. destruct v; try discriminate; eauto.
Qed.

(** ** The loops *)
Lemma set_loop_ok sel D W : forall pipe,
  (forall k v, In (k, v) D -> sel v = true -> exists w, dget W k = Some w) ->
  (forall k v, In (k, v) D -> dget pipe k <> None) ->
  exists pipe', set_loop sel D W pipe = (pipe', true) /\ map fst pipe' = map fst pipe /\
    forall k, (forall v, In (k, v) D -> sel v = true -> dget pipe' k = dget W k) /\
              ((forall v, In (k, v) D -> sel v = false) -> dget pipe' k = dget pipe k).
Proof.
  induction D as [|[k0 v0] D IH]; intros pipe HW HP; cbn [set_loop].
  - exists pipe. split; [reflexivity|]. split; [reflexivity|]. intros k. split; [intros v []|reflexivity].
  - destruct (sel v0) eqn:S.
    + destruct (HW k0 v0 (or_introl eq_refl) S) as [w Ew]. rewrite Ew. unfold set_param. destruct (dget pipe k0) as [old|] eqn:E0; [|exfalso; exact (HP k0 v0 (or_introl eq_refl) E0)].
      destruct (IH (dset pipe k0 w)) as [pipe' [E [K H]]].
      * intros k v I. apply HW. now right.
      * intros k v I. rewrite dget_dset, E0. destruct (String.eqb k k0); [discriminate|]. eapply HP. right. eassumption.
      * exists pipe'. split; [exact E|]. split; [now rewrite K, dset_keys|]. intros k. destruct (H k) as [H1 H2]. split.
        -- intros v [[= <- <-]|I] S'; [|now apply (H1 v)].
           assert (DEC : (exists v, In (k0, v) D /\ sel v = true) \/ forall v, In (k0, v) D -> sel v = false).
           { clear. induction D as [|[k v] D IH]; [right; intros v []|]. destruct IH as [[v' [I S]]|IH]; [left; exists v'; split; [now right|assumption]|]. destruct (String.eqb_spec k k0) as [->|N]; [|right; intros v' [[= <- <-]|I]; [contradiction|now apply IH]].
             destruct (sel v) eqn:S; [left; exists v; split; [now left|assumption]|]. right. intros v' [[= <-]|I]; [assumption|now apply IH]. }
           destruct DEC as [[v [I S'']]|A]; [now apply (H1 v)|]. rewrite (H2 A), dget_dset, String.eqb_refl, E0. now rewrite Ew.
        -- intros A. rewrite H2 by (intros v I; apply A; now right). rewrite dget_dset. destruct (String.eqb_spec k k0) as [->|N]; [|reflexivity]. specialize (A v0 (or_introl eq_refl)). congruence.
    + destruct (IH pipe) as [pipe' [E [K H]]]; [intros k v I; apply HW; now right|intros k v I; apply (HP k v); now right|]. exists pipe'. split; [exact E|]. split; [exact K|]. intros k. destruct (H k) as [H1 H2]. split.
      * intros v [[= <- <-]|I] S'; [congruence|now apply (H1 v)].
      * intros A. apply H2. intros v I. apply A. now right.
Qed.

Lemma set_all_ok d s W pipe : dict d ->
  s_cover s = filter (fun kv : string * pval => String.prefix "cover__" (fst kv)) d ->
  s_cluster s = filter (fun kv : string * pval => String.prefix "clusterer__" (fst kv)) d ->
  s_nerve s = filter (fun kv : string * pval => String.eqb (fst kv) "min_intersection" || String.eqb (fst kv) "contract_nodes") d ->
  map fst pipe = map fst d ->
  (forall k v, dget d k = Some v -> eb k v = true -> exists w, dget W k = Some w) ->
  exists pipe', set_all s W pipe = (pipe', true) /\ map fst pipe' = map fst d /\
    forall k v, dget d k = Some v -> dget pipe' k = if pb k v then dget W k else dget pipe k.
Proof.
  intros D E1 E2 E3 K HW. unfold set_all. rewrite E1, E2, E3.
  assert (F : forall (p : string * pval -> bool) k v, In (k, v) (filter p d) -> dget d k = Some v /\ p (k, v) = true) by (intros p k v I; apply filter_In in I; destruct I as [I P]; split; [now apply dict_dget|assumption]).
  assert (F' : forall (p : string * pval -> bool) k v, dget d k = Some v -> p (k, v) = true -> In (k, v) (filter p d)) by (intros p k v I P; apply filter_In; split; [now apply dget_In|assumption]).
  assert (KP : forall pipe0 k v, map fst pipe0 = map fst d -> dget d k = Some v -> dget pipe0 k <> None) by (intros pipe0 k v K0 E N; apply (dget_keys pipe0 d) in N; congruence).
  assert (T : forall v, int_float_str v = typed v) by reflexivity. assert (TB : forall v, int_bool v = true -> typed v = true) by (intros []; cbn; auto).
  destruct (set_loop_ok int_float_str (filter (fun kv : string * pval => String.prefix "cover__" (fst kv)) d) W pipe) as [p1 [L1 [K1 H1]]].
  { intros k v I S. apply F in I. destruct I as [I P]. cbn in P. apply (HW k v I). unfold eb, is_step. rewrite P. cbn. now rewrite <- T. }
  { intros k v I. apply F in I. now apply (KP _ _ v). }
  destruct (set_loop_ok int_float_str (filter (fun kv : string * pval => String.prefix "clusterer__" (fst kv)) d) W p1) as [p2 [L2 [K2 H2]]].
  { intros k v I S. apply F in I. destruct I as [I P]. cbn in P. apply (HW k v I). unfold eb, is_step. rewrite P, orb_true_r. cbn. now rewrite <- T. }
  { intros k v I. apply F in I. apply (KP _ _ v); [congruence|tauto]. }
  destruct (set_loop_ok int_bool (filter (fun kv : string * pval => String.eqb (fst kv) "min_intersection" || String.eqb (fst kv) "contract_nodes") d) W p2) as [p3 [L3 [K3 H3]]].
  { intros k v I S. apply F in I. destruct I as [I P]. cbn [fst] in P. apply (HW k v I). unfold eb, is_nerve. rewrite P, orb_true_r. cbn. now apply TB. }
  { intros k v I. apply F in I. apply (KP _ _ v); [congruence|tauto]. }
  rewrite L1. cbn [negb]. rewrite L2. cbn [negb]. exists p3. split; [exact L3|]. split; [congruence|]. intros k v E. unfold pb, is_step, is_nerve.
  destruct (H1 k) as [A1 B1], (H2 k) as [A2 B2], (H3 k) as [A3 B3].
  assert (U : forall (p : string * pval -> bool) v', In (k, v') (filter p d) -> v' = v) by (intros p v' I; apply F in I; destruct I; congruence).
  destruct (String.eqb k "min_intersection" || String.eqb k "contract_nodes") eqn:N.
  - pose proof (nerve_not_step k N) as NS. unfold is_step in NS. rewrite NS. cbn [andb orb]. apply orb_false_iff in NS. destruct NS as [N1 N2].
    assert (X1 : dget p1 k = dget pipe k) by (apply B1; intros v' I; apply F in I; cbn in I; destruct I; congruence).
    assert (X2 : dget p2 k = dget p1 k) by (apply B2; intros v' I; apply F in I; cbn in I; destruct I; congruence).
    destruct (int_bool v) eqn:IB; [apply (A3 v); [apply F'; assumption|assumption]|]. rewrite B3, X2, X1; [reflexivity|]. intros v' I. now rewrite (U _ _ I).
  - cbn [andb]. rewrite orb_false_r. assert (X3 : dget p3 k = dget p2 k) by (apply B3; intros v' I; apply F in I; cbn [fst] in I; destruct I; congruence). rewrite X3.
    destruct (String.prefix "clusterer__" k) eqn:N2.
    + rewrite orb_true_r. cbn [andb]. destruct (typed v) eqn:TV; [apply (A2 v); [apply F'; assumption|assumption]|]. rewrite B2 by (intros v' I; now rewrite (U _ _ I)). apply B1. intros v' I. now rewrite (U _ _ I).
    + rewrite orb_false_r. rewrite B2 by (intros v' I; apply F in I; cbn in I; destruct I; congruence). destruct (String.prefix "cover__" k) eqn:N1; cbn [andb].
      * destruct (typed v) eqn:TV; [apply (A1 v); [apply F'; assumption|assumption]|]. apply B1. intros v' I. now rewrite (U _ _ I).
      * apply B1. intros v' I. apply F in I. cbn in I. destruct I. congruence.
Qed.

Lemma widgets_get d k v : dict d ->
  dget (widgets_of (filter (fun kv : string * pval => String.prefix "cover__" (fst kv)) d) ++
        widgets_of (filter (fun kv : string * pval => String.prefix "clusterer__" (fst kv)) d) ++
        widgets_of (filter (fun kv : string * pval => String.eqb (fst kv) "min_intersection" || String.eqb (fst kv) "contract_nodes") d)) k = Some v
  <-> dget d k = Some v /\ eb k v = true.
Proof.
  intros D. assert (DF : forall p, dict (filter p d)).
  { intros p. unfold dict in *. clear - D. induction d as [|kv d IH]; [constructor|]. cbn [map] in D. inversion D as [|? ? N D']; subst. cbn [filter]. destruct (p kv); [|now apply IH]. cbn [map]. constructor; [|now apply IH]. intros I. apply N. apply in_map_iff in I. destruct I as [x [E I]]. apply filter_In in I. apply in_map_iff. exists x. tauto. }
  assert (G : forall p v, dget (widgets_of (filter p d)) k = Some v <-> dget d k = Some v /\ p (k, v) = true /\ typed v = true).
  { intros p v0. unfold widgets_of. rewrite (dget_filter _ _ _ _ (DF p)), (dget_filter _ _ _ _ D). cbn [snd]. assert (X : (is_float v0 || is_bool v0 || is_int v0 || is_str v0) = typed v0) by (now destruct v0). rewrite X. tauto. }
  rewrite !dget_app. unfold eb, is_step, is_nerve.
  destruct (dget (widgets_of (filter (fun kv => String.prefix "cover__" (fst kv)) d)) k) as [v1|] eqn:X1.
  { apply G in X1. cbn [fst] in X1. destruct X1 as [A [B C]]. split.
    - intros [= <-]. rewrite B, C. auto.
    - intros [E _]. congruence. }
  destruct (dget (widgets_of (filter (fun kv => String.prefix "clusterer__" (fst kv)) d)) k) as [v2|] eqn:X2.
  { apply G in X2. cbn [fst] in X2. destruct X2 as [A [B C]]. split.
    - intros [= <-]. rewrite B, C, orb_true_r. auto.
    - intros [E _]. congruence. }
  rewrite G. cbn [fst]. split.
  - intros [A [B C]]. rewrite B, C, orb_true_r. auto.
  - intros [A B]. split; [assumption|]. apply andb_true_iff in B. destruct B as [B C]. split; [|assumption]. apply orb_true_iff in B. destruct B as [B|B]; [|assumption]. exfalso.
    apply orb_true_iff in B. destruct B as [B|B].
    + assert (X : dget (widgets_of (filter (fun kv => String.prefix "cover__" (fst kv)) d)) k = Some v) by (apply G; auto). congruence.
    + assert (X : dget (widgets_of (filter (fun kv => String.prefix "clusterer__" (fst kv)) d)) k = Some v) by (apply G; auto). congruence.
Qed.
