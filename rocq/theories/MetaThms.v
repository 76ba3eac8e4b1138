(** C60: CollectionTransformer and ListFeatureUnion. *)
From Coq Require Import String.
From Verif Require Import Np NpFacts Fl ValidModel ValidThms MParModel PipeModel PipeSpec PipeThms MetaModel.
From Verif Require CurveThms2.
Open Scope Z_scope.

Section Collection.
Context {P S B : Type}.
Variable fresh : P -> S.
Variable run : obj P S -> arr -> res B * obj P S.
Variable shape_of : B -> option (list Z).
Variable sparse_rows : arr -> list arr.

(** What a new transformer with the parameters of [t] gives for [x]. *)
Definition alone (t : obj P S) (x : arr) : res B := fst (run (Obj (o_params t) (fresh (o_params t))) x).

Notation step := (step fresh run).
Notation exec := (exec fresh run).
Notation cfg := (cfg P S B).
Definition inv (t : obj P S) (items : list arr) (c : cfg) : Prop :=
  let k := zlen (addr c) in
  k <= zlen items /\ zlen (heap c) = k + 1 /\ Znth (heap c) 0 = Some t /\ zlen (results c) = zlen items /\
  (forall i a, Znth (addr c) i = Some a -> a = i + 1) /\
  (forall i x, Znth items i = Some x ->
     match Znth (results c) i with
     | Some None => i < k -> Znth (heap c) (i + 1) = Some (clone_obj fresh t)
     | Some (Some r) => i < k /\ r = alone t x
     | None => False
     end).
Lemma inv_init t items : inv t items (init t items).
Proof.
  unfold inv, init. cbn [addr heap results]. change (zlen []) with 0. pose proof (zlen_nonneg items).
  repeat split; auto; [now rewrite zlen_map| |].
  - intros i a Hi. apply Znth_In in Hi. destruct Hi.
  - intros i x Hi. rewrite Znth_map, Hi. cbn. intro. apply Znth_Some_lt in Hi. lia.
Qed.
Lemma inv_step t items c e c' : inv t items c -> step items c e = Some c' -> inv t items c'.
Proof.
  intros (K & LH & H0 & LR & A & I) E. destruct e as [|i]; cbn [MetaModel.step] in E.
  - destruct (Z.ltb_spec (zlen (addr c)) (zlen items)) as [L|]; [|easy]. rewrite H0 in E. injection E as <-.
    unfold inv. cbn [addr heap results]. rewrite !zlen_app. change (zlen [clone_obj fresh t]) with 1. change (zlen [zlen (heap c)]) with 1.
    pose proof (zlen_nonneg (addr c)).
    repeat split; auto; try lia.
    + rewrite Znth_app1 by lia. auto.
    + intros i a Hi. destruct (Z.lt_ge_cases i (zlen (addr c))).
      * rewrite Znth_app1 in Hi by auto. auto.
      * rewrite Znth_app2 in Hi by auto. pose proof (Znth_Some_lt _ _ _ Hi) as Bd. change (zlen [zlen (heap c)]) with 1 in Bd.
        replace (i - zlen (addr c)) with 0 in Hi by lia. cbn in Hi. injection Hi as <-. lia.
    + intros i x Hi. specialize (I i x Hi). destruct (Znth (results c) i) as [[r|]|]; auto; [destruct I; split; auto; lia|].
      intros Hk. destruct (Z.lt_ge_cases i (zlen (addr c))).
      * rewrite Znth_app1 by lia. auto.
      * rewrite Znth_app2 by lia. replace (i + 1 - zlen (heap c)) with 0 by lia. reflexivity.
  - destruct (Znth (addr c) i) as [a|] eqn:Ea; [|easy]. destruct (Znth (results c) i) as [[r|]|] eqn:Er; try easy.
    destruct (Znth items i) as [x|] eqn:Ex; [|easy]. destruct (Znth (heap c) a) as [o|] eqn:Eo; [|easy].
    pose proof (A _ _ Ea) as ->. pose proof (Znth_Some_lt _ _ _ Ea) as Bi. pose proof (I i x Ex) as Ii. rewrite Er in Ii.
    rewrite Ii in Eo by lia. injection Eo as <-. destruct (run (clone_obj fresh t) x) as [r o'] eqn:R. injection E as <-.
    unfold inv. cbn [addr heap results]. rewrite !zlen_set_at. repeat split; auto.
    + rewrite Znth_set_at. destruct (Z.eqb_spec 0 (i + 1)); [lia|auto].
    + intros j y Hj. rewrite Znth_set_at. destruct (Z.eqb_spec j i) as [->|N].
      * rewrite Er. cbn [option_map]. split; [lia|]. assert (y = x) as -> by congruence. unfold alone.
        change (Obj (o_params t) (fresh (o_params t))) with (clone_obj fresh t). now rewrite R.
      * specialize (I j y Hj). destruct (Znth (results c) j) as [[r'|]|]; auto. intro Lj.
        rewrite Znth_set_at. destruct (Z.eqb_spec (j + 1) (i + 1)); [lia|auto].
Qed.
Lemma inv_exec t items s c c' : inv t items c -> exec items c s = Some c' -> inv t items c'.
Proof.
  revert c; induction s as [|e s IH]; intros c I E; cbn [MetaModel.exec] in E; [now injection E as <-|].
  destruct (step items c e) as [c1|] eqn:E1; [|easy]. apply (IH c1); auto. exact (inv_step t items c e c1 I E1).
Qed.

(** Running the first k tasks one after the other. *)
Lemma exec_app items s s' c c' : exec items c s = Some c' -> exec items c (s ++ s') = exec items c' s'.
Proof.
  revert c; induction s as [|e s IH]; intros c E; cbn [MetaModel.exec app] in *; [now injection E as <-|].
  destruct (step items c e); [auto|easy].
Qed.
Lemma sequential t items : forall k : nat, Z.of_nat k <= zlen items ->
  exists s c, exec items (init t items) s = Some c /\ zlen (addr c) = Z.of_nat k /\
    forall i, 0 <= i < zlen items -> exists r, Znth (results c) i = Some r /\ (r <> None <-> i < Z.of_nat k).
Proof.
  induction k as [|k IH]; intros Hk.
  - exists [], (init t items). split; [reflexivity|]. split; [reflexivity|]. intros i Hi. exists None. cbn [init results].
    rewrite Znth_map. destruct (Znth_ex items i Hi) as [x ->]. split; auto. split; [easy|lia].
  - destruct IH as (s & c & E & L & D); [lia|]. pose proof (inv_exec _ _ _ _ _ (inv_init t items) E) as I.
    pose proof I as (K & LH & H0 & LR & A & Q).
    set (c1 := Cfg (heap c ++ [clone_obj fresh t]) (addr c ++ [zlen (heap c)]) (results c)).
    assert (S1 : step items c Dispatch = Some c1).
    { cbn [MetaModel.step]. destruct (Z.ltb_spec (zlen (addr c)) (zlen items)); [|lia]. rewrite H0. reflexivity. }
    destruct (Znth_ex items (Z.of_nat k)) as [x Hx]; [lia|]. destruct (D (Z.of_nat k)) as (r & Hr & Nr); [lia|].
    assert (r = None) as ->. { destruct r; auto. exfalso. assert (Z.of_nat k < Z.of_nat k) by (apply Nr; easy). lia. }
    destruct (run (clone_obj fresh t) x) as [y o'] eqn:R.
    set (c2 := Cfg (set_at (heap c1) (zlen (heap c)) o') (addr c1) (set_at (results c) (Z.of_nat k) (Some y))).
    assert (S2 : step items c1 (Run (Z.of_nat k)) = Some c2).
    { cbn [MetaModel.step]. unfold c1 at 1. cbn [addr results heap c1]. rewrite Znth_app2 by lia.
      replace (Z.of_nat k - zlen (addr c)) with 0 by lia. cbn [Znth Z.ltb Z.compare nth_error Z.to_nat]. rewrite Hr, Hx.
      rewrite Znth_app2 by lia. rewrite Z.sub_diag. cbn [Znth Z.ltb Z.compare nth_error Z.to_nat]. rewrite R. reflexivity. }
    exists (s ++ [Dispatch; Run (Z.of_nat k)])%list, c2. split.
    { rewrite (exec_app _ _ _ _ _ E). cbn [MetaModel.exec]. rewrite S1, S2. reflexivity. }
    split. { cbn [c2 addr c1]. rewrite zlen_app. change (zlen [zlen (heap c)]) with 1. lia. }
    intros i Hi. cbn [c2 results]. rewrite Znth_set_at. destruct (Z.eqb_spec i (Z.of_nat k)) as [->|N].
    + rewrite Hr. cbn. eexists. split; eauto. split; [lia|easy].
    + destruct (D i Hi) as (r & Hr' & Nr'). exists r. split; auto. rewrite Nr'. lia.
Qed.

(** In every schedule, parallel execution gives for each item what a new transformer gives, and leaves
    the transformer alone. *)
Lemma parallel_returns_iff t items ys t' : parallel_returns fresh run t items ys t' <->
  t' = t /\ Forall2 (fun x y => alone t x = Ok y) items ys.
Proof.
  split.
  - intros (s & c & E & R & H). pose proof (inv_exec _ _ _ _ _ (inv_init t items) E) as (K & LH & H0 & LR & A & Q).
    split; [congruence|]. assert (LY : zlen ys = zlen items) by (rewrite <- LR, R, zlen_map; reflexivity).
    apply CurveThms2.Forall2_of_Znth; auto. intros i x y Hx Hy. specialize (Q i x Hx). rewrite R, Znth_map, Hy in Q. cbn in Q.
    symmetry. apply Q.
  - intros [-> F]. destruct (sequential t items (length items)) as (s & c & E & L & D); [unfold zlen; lia|].
    pose proof (inv_exec _ _ _ _ _ (inv_init t items) E) as (K & LH & H0 & LR & A & Q).
    exists s, c. split; auto. split; auto. pose proof (Forall2_zlen _ _ _ F) as LF.
    apply Znth_ext; [rewrite zlen_map; lia|]. intros i Hi. rewrite Znth_map.
    destruct (Znth_ex ys i) as [y Hy]; [lia|]. destruct (Znth_ex items i) as [x Hx]; [lia|]. rewrite Hy. cbn [option_map].
    destruct (D i) as (r & Hr & Nr); [lia|]. specialize (Q i x Hx). rewrite Hr in *. destruct r as [r|].
    + destruct Q as [_ ->]. do 2 f_equal. exact (Forall2_Znth _ _ _ _ _ _ F Hx Hy).
    + exfalso. apply Nr; auto. unfold zlen in *. lia.
Qed.
Lemma parallel_raises_iff t items e t' : parallel_raises fresh run t items e t' <->
  t' = t /\ exists x, In x items /\ alone t x = Err e.
Proof.
  split.
  - intros (s & c & i & E & R & H). pose proof (inv_exec _ _ _ _ _ (inv_init t items) E) as (K & LH & H0 & LR & A & Q).
    split; [congruence|]. destruct (Znth_ex items i) as [x Hx]; [apply Znth_Some_lt in R; lia|]. specialize (Q i x Hx). rewrite R in Q.
    exists x. split; [eapply Znth_In; eauto|]. now destruct Q as [_ <-].
  - intros (-> & x & I & Ex). destruct (sequential t items (length items)) as (s & c & E & L & D); [unfold zlen; lia|].
    pose proof (inv_exec _ _ _ _ _ (inv_init t items) E) as (K & LH & H0 & LR & A & Q).
    apply In_Znth in I as (i & Bi & Hi). exists s, c, i. split; auto. split; auto.
    destruct (D i) as (r & Hr & Nr); [lia|]. specialize (Q i x Hi). rewrite Hr in *. destruct r as [r|].
    + destruct Q as [_ ->]. now rewrite Ex.
    + exfalso. apply Nr; auto. unfold zlen in *. lia.
Qed.

Notation ct_outcome := (ct_outcome fresh run).
(** fit_transform and transform on an accepted, non-empty collection: for every schedule, if a new copy
    of the transformer succeeds on each entry, the collection of these outputs; if it fails on some, one
    of these exceptions.  The transformer itself is untouched. *)
Theorem collection_transformer_spec t X Xt o t' :
  check_collection X true (Some FFalse) = Ok Xt -> items_of sparse_rows Xt <> [] ->
  (ct_outcome true true shape_of sparse_rows t X o t' <->
   t' = t /\ ((exists ys, Forall2 (fun x y => alone t x = Ok y) (items_of sparse_rows Xt) ys /\ o = finish shape_of ys) \/
              (exists x e, In x (items_of sparse_rows Xt) /\ alone t x = Err e /\ o = Err e))).
Proof.
  intros HX NE. unfold MetaModel.ct_outcome. cbn [negb]. rewrite HX.
  destruct (items_of sparse_rows Xt) as [|x0 items'] eqn:EI; [easy|]. rewrite <- EI in *. clear EI. split.
  - intros [(e & H & ->)|(ys & H & ->)].
    + apply parallel_raises_iff in H as (-> & x & I & E). split; auto. right. eauto.
    + apply parallel_returns_iff in H as (-> & F). split; auto. left. eauto.
  - intros [-> [(ys & F & ->)|(x & e & I & E & ->)]].
    + right. exists ys. split; auto. now apply parallel_returns_iff.
    + left. exists e. split; auto. apply parallel_raises_iff. eauto.
Qed.

(** What the collection of outputs is: one array if all the shapes agree, else a list. *)
Theorem finish_spec ys : ys <> [] ->
  (forall y, In y ys -> shape_of y <> None) /\
    (((forall y y', In y ys -> In y' ys -> shape_of y = shape_of y') /\ finish shape_of ys = Ok (OStack ys)) \/
     (~ (forall y y', In y ys -> In y' ys -> shape_of y = shape_of y') /\ finish shape_of ys = Ok (OList ys))) \/
  (exists y, In y ys /\ shape_of y = None) /\ finish shape_of ys = Err AttributeError.
Proof.
  intro NE. destruct ys as [|y0 t] eqn:EY; [easy|]. rewrite <- EY. unfold finish.
  assert (py_get ys 0 = Ok y0) as -> by (subst; reflexivity). cbn [bind].
  assert (I0 : In y0 ys) by (subst; now left). clear EY NE.
  assert (C : (exists ss, mapM (shape_attr shape_of) ys = Ok ss /\ Forall2 (fun y s => shape_of y = Some s) ys ss) \/
    (mapM (shape_attr shape_of) ys = Err AttributeError /\ exists y, In y ys /\ shape_of y = None)).
  { clear. induction ys as [|y ys IH]; [left; exists []; auto|]. cbn [mapM].
    destruct (shape_of y) as [s|] eqn:Ey.
    - assert (shape_attr shape_of y = Ok s) as -> by (unfold shape_attr; now rewrite Ey). cbn [bind].
      destruct IH as [(ss & -> & F)|[-> (z & I & N)]]; cbn [bind].
      + left. exists (s :: ss). auto.
      + right. split; auto. exists z. split; [now right|auto].
    - assert (shape_attr shape_of y = Err AttributeError) as -> by (unfold shape_attr; now rewrite Ey). cbn [bind].
      right. split; auto. exists y. split; [now left|auto]. }
  destruct C as [(ss & E & F)|[E X]].
  2:{ right. split; auto. unfold shape_attr at 1. destruct (shape_of y0); auto. cbn [bind]. now rewrite E. }
  left. split.
  { intros y I N. apply In_Znth in I as (i & Bi & Hi). destruct (Znth_ex ss i) as [s Hs]; [rewrite <- (Forall2_zlen _ _ _ F); lia|].
    pose proof (Forall2_Znth _ _ _ _ _ _ F Hi Hs). cbn in *. congruence. }
  assert (G : forall y, In y ys -> exists s, In s ss /\ shape_of y = Some s).
  { intros y I. apply In_Znth in I as (i & Bi & Hi). destruct (Znth_ex ss i) as [s Hs]; [rewrite <- (Forall2_zlen _ _ _ F); lia|].
    exists s. split; [eapply Znth_In; eauto|exact (Forall2_Znth _ _ _ _ _ _ F Hi Hs)]. }
  assert (G' : forall s, In s ss -> exists y, In y ys /\ shape_of y = Some s).
  { intros s I. apply In_Znth in I as (i & Bi & Hi). destruct (Znth_ex ys i) as [y Hs]; [rewrite (Forall2_zlen _ _ _ F); lia|].
    exists y. split; [eapply Znth_In; eauto|exact (Forall2_Znth _ _ _ _ _ _ F Hs Hi)]. }
  destruct (G y0 I0) as (s0 & _ & E0). assert (shape_attr shape_of y0 = Ok s0) as -> by (unfold shape_attr; now rewrite E0).
  cbn [bind]. rewrite E. cbn [bind].
  destruct (forallb (fun s => shape_eqb s s0) ss) eqn:FB.
  - left. split; auto. rewrite forallb_forall in FB. intros y y' I I'.
    destruct (G _ I) as (s & Is & ->). destruct (G _ I') as (s' & Is' & ->).
    apply FB, shape_eqb_spec in Is. apply FB, shape_eqb_spec in Is'. congruence.
  - right. split; auto. intro H. assert (forallb (fun s => shape_eqb s s0) ss = true); [|congruence].
    apply forallb_forall. intros s I. apply shape_eqb_spec. destruct (G' _ I) as (y & Iy & Ey).
    rewrite (H y y0 Iy I0) in Ey. congruence.
Qed.

(** Without fit_transform: AttributeError from fit_transform and transform, TypeError from fit; without
    get_params (allowed with a warning) every call fails, with a TypeError on a valid
    collection with some entry. *)
Theorem collection_transformer_unusable t X o t' :
  (forall gp, ct_outcome gp false shape_of sparse_rows t X o t' <-> o = Err AttributeError /\ t' = t) /\
  (ct_outcome false true shape_of sparse_rows t X o t' -> exists e, o = Err e) /\
  (forall Xt, check_collection X true (Some FFalse) = Ok Xt -> items_of sparse_rows Xt <> [] ->
     ct_outcome false true shape_of sparse_rows t X o t' <-> o = Err TypeError /\ t' = t) /\
  (forall u, ct_fit false X <> Ok u).
Proof.
  split; [reflexivity|]. split; [|split].
  - unfold MetaModel.ct_outcome. cbn [negb]. destruct (check_collection X true (Some FFalse)) as [Xt|e]; [|intros [-> _]; eauto].
    destruct (items_of sparse_rows Xt); intros [-> _]; eauto.
  - intros Xt E N. unfold MetaModel.ct_outcome. cbn [negb]. rewrite E. destruct (items_of sparse_rows Xt); easy.
  - intros u H. unfold ct_fit in H. destruct (check_collection X true (Some FFalse)); easy.
Qed.
(** On nothing: an IndexError. *)
Theorem collection_transformer_empty t o t' : ct_outcome true true shape_of sparse_rows t (CSeq []) o t' <-> o = Err IndexError /\ t' = t.
Proof. reflexivity. Qed.
(** The entries of a dense array: along the first axis. *)
Theorem items_dense x n s : a_kind x = Dense -> a_shape x = n :: s -> 0 <= n -> (forall m, In m s -> 0 <= m) ->
  zlen (a_data x) = fold_right Z.mul 1 (n :: s) ->
  let items := items_of sparse_rows (OutArr x) in
  zlen items = n /\ (forall y, In y items -> a_shape y = s) /\ concat (map a_data items) = a_data x /\
  (forall y, In y items -> zlen (a_data y) = fold_right Z.mul 1 s).
Proof.
  intros K S0 Hn Hs L. cbn [items_of]. rewrite K, S0. cbn [fold_right] in L. set (w := fold_right Z.mul 1 s) in *.
  assert (Hw : 0 <= w).
  { unfold w. clear - Hs. induction s as [|m s IH]; cbn [fold_right]; [lia|]. apply Z.mul_nonneg_nonneg; [apply Hs; now left|apply IH; intros; apply Hs; now right]. }
  assert (SP : forall i, 0 <= i < n -> zlen (py_sub (Some (i * w)) (Some ((i + 1) * w)) (a_data x)) = w /\
    forall k, 0 <= k < w -> Znth (py_sub (Some (i * w)) (Some ((i + 1) * w)) (a_data x)) k = Znth (a_data x) (i * w + k)).
  { intros i Hi. destruct (py_sub_spec (a_data x) (i * w) ((i + 1) * w)) as [Aa Bb]; [nia|nia|]. split; [lia|]. intros k Hk. apply Bb; lia. }
  cbn zeta. set (items := tabZ n _).
  assert (IT : forall y, In y items -> exists i, 0 <= i < n /\ y = MkArr Dense s (py_sub (Some (i * w)) (Some ((i + 1) * w)) (a_data x))).
  { intros y I. apply In_Znth in I as (i & Bi & Hi). unfold items in *. rewrite zlen_tabZ in Bi by lia. rewrite Znth_tabZ in Hi by lia.
    injection Hi as <-. eauto. }
  assert (U : forall y, In y items -> zlen (a_data y) = w) by (intros y I; apply IT in I as (i & Bi & ->); now apply SP).
  split; [unfold items; rewrite zlen_tabZ; lia|]. split; [intros y I; now apply IT in I as (i & Bi & ->)|]. split; auto.
  assert (U' : forall r, In r (map a_data items) -> zlen r = w) by (intros r I; apply in_map_iff in I as (y & <- & I); auto).
  assert (LI : zlen (map a_data items) = n) by (rewrite zlen_map; unfold items; rewrite zlen_tabZ; lia).
  apply Znth_ext; [rewrite (zlen_concat_uniform _ w U'); lia|].
  intros k Hk. rewrite (zlen_concat_uniform _ w U'), LI in Hk.
  assert (w <> 0) by nia. pose proof (Z.div_mod k w ltac:(lia)) as DM. pose proof (Z.mod_pos_bound k w ltac:(lia)).
  assert (0 <= k / w < n) by (split; [apply Z.div_pos; lia|apply Z.div_lt_upper_bound; nia]).
  replace k with ((k / w) * w + k mod w) by lia.
  erewrite (Znth_concat_uniform _ w (k / w) (k mod w) _ U'); [|unfold items; rewrite Znth_map, Znth_tabZ by assumption; reflexivity|lia].
  cbn [a_data]. now apply SP.
Qed.
End Collection.

(** A transformer which remembers what it has seen: the clones do not. *)
Definition ex_run (o : obj Z (list arr)) (x : arr) : res (list Z) * obj Z (list arr) :=
  (Ok [o_params o; zlen (o_state o); zlen (a_data x)], Obj (o_params o) (x :: o_state o)).
Definition v1 := MkArr Dense [2] [fz 1; fz 2].
Definition v2 := MkArr Dense [3] [fz 1; fz 2; fz 3].
Example collection_example t' o :
  ct_outcome (fun _ => []) ex_run true true (fun l => Some [zlen l]) (fun _ => []) (Obj 7 [v1]) (CSeq [v1; v2]) o t' <->
  o = Ok (OStack [[7; 0; 2]; [7; 0; 3]]) /\ t' = Obj 7 [v1].
Proof.
  rewrite (collection_transformer_spec _ _ _ _ _ _ (OutList [v1; v2])); [|reflexivity|easy]. split.
  - intros [-> [(ys & F & ->)|(x & e & _ & H & _)]]; [|easy]. split; auto.
    inversion F as [|? ? ? ? E1 F1]; subst. inversion F1 as [|? ? ? ? E2 F2]; subst. inversion F2; subst.
    cbn in E1, E2. injection E1 as <-. injection E2 as <-. reflexivity.
  - intros [-> ->]. split; auto. left. exists [[7; 0; 2]; [7; 0; 3]]. split; [repeat constructor|reflexivity].
Qed.

Section Union.
Context {O X Y V R W : Type}.
Variable M : methods O X Y V R.
Variable times : X -> W -> X.
Hypothesis LAW : lawful M.
Notation entries := (list (string * option O)).
Notation lfu_fit_transform := (lfu_fit_transform M times).
Notation lfu_transform := (lfu_transform M times).

(** The transformers which are not dropped, with their names, in order. *)
Fixpoint present (l : entries) : list (string * O) :=
  match l with [] => [] | (n, Some o) :: t => (n, o) :: present t | (_, None) :: t => present t end.
(** The output of a fitted transformer, multiplied by its weight if it has one. *)
Definition output_of (weights : list (string * W)) (x : X) (no : string * O) (x' : X) : Prop :=
  exists x1, transform M (snd no) x = Ok x1 /\
    x' = match lookup (fst no) weights with Some w => times x1 w | None => x1 end.

Lemma union_iter_present (l : entries) (weights : list (string * W)) :
  union_iter l weights = map (fun no => (snd no, lookup (fst no) weights)) (present l).
Proof. induction l as [|[n [o|]] l IH]; cbn; try rewrite <- IH; reflexivity. Qed.

(** transform: one output for each transformer present, in order. *)
Theorem list_union_transform_spec l weights x r :
  lfu_transform l weights x = Ok r <->
  (exists outs, Forall2 (output_of weights x) (present l) outs /\
     r = match outs with [] => None | _ => Some outs end).
Proof.
  unfold MetaModel.lfu_transform. rewrite union_iter_present.
  assert (E : forall outs, mapM (transform_one M times x) (map (fun no => (snd no, lookup (fst no) weights)) (present l)) = Ok outs <->
    Forall2 (output_of weights x) (present l) outs).
  { intro outs. rewrite mapM_map. rewrite CurveThms2.mapM_iff. apply CurveThms2.Forall2_iff'. intros [n o] x' _. unfold transform_one, output_of. cbn [fst snd].
    split.
    - intro H. destruct (transform M o x) as [x1|]; [|easy]. injection H as <-. exists x1. split; auto. 
    - intros (x1 & -> & ->). cbn. now destruct (lookup n weights). }
  split.
  - intro H. destruct (mapM _ _) as [outs|]; [|easy]. exists outs. split; [now apply E|]. cbn in H. destruct outs; now injection H as <-.
  - intros (outs & F & ->). apply E in F. rewrite F. cbn. now destruct outs.
Qed.

(** The transformer [o] fitted gives [o']. *)
Definition fitted_entry (x : X) (y : option Y) (p : list (string * V)) (e e' : string * option O) : Prop :=
  fst e' = fst e /\ match snd e, snd e' with
                    | Some o, Some o' => fit M o x y p = Ok o'
                    | None, None => True
                    | _, _ => False
                    end.

Lemma fit_one x y p o w r o' :
  fit_transform_one M times x y p (o, w) = Ok (r, o') <->
  fit M o x y p = Ok o' /\ exists x1, transform M o' x = Ok x1 /\ r = weighted times w x1.
Proof.
  unfold fit_transform_one. destruct (has M o FitTransform) eqn:H.
  - rewrite (law_ft _ LAW) by auto. destruct (fit M o x y p) as [o1|]; cbn [bind]; [|split; [easy|now intros [? _]]].
    destruct (transform M o1 x) as [x1|] eqn:T; cbn [bind fst snd].
    + split; [injection 1 as <- <-; eauto|]. intros [E (x2 & T2 & ->)]. injection E as <-. rewrite T in T2. now injection T2 as ->.
    + split; [easy|]. intros [E (x2 & T2 & _)]. injection E as <-. congruence.
  - destruct (fit M o x y p) as [o1|]; cbn [bind]; [|split; [easy|now intros [? _]]].
    destruct (transform M o1 x) as [x1|] eqn:T; cbn [bind fst snd].
    + split; [injection 1 as <- <-; eauto|]. intros [E (x2 & T2 & ->)]. injection E as <-. rewrite T in T2. now injection T2 as ->.
    + split; [easy|]. intros [E (x2 & T2 & _)]. injection E as <-. congruence.
Qed.

(** fit_transform: fits each transformer present on the same data, keeping names, order and dropped
    places; the outputs are those transform gives afterwards. *)
Theorem list_union_fit_transform_spec l weights x y p l' r : validate_transformers M l = Ok tt ->
  (lfu_fit_transform l weights x y p = Ok (l', r) <->
   Forall2 (fitted_entry x y p) l l' /\ lfu_transform l' weights x = Ok r).
Proof.
  intro VT. rewrite list_union_transform_spec. unfold MetaModel.lfu_fit_transform. rewrite VT. cbn [bind].
  rewrite union_iter_present.
  set (f := fit_transform_one M times x y p).
  assert (G : forall l res, mapM f (map (fun no => (snd no, lookup (fst no) weights)) (present l)) = Ok res <->
    exists l', Forall2 (fitted_entry x y p) l l' /\ Forall2 (output_of weights x) (present l') (map fst res) /\
      map snd (present l') = map snd res).
  { clear l VT l'. induction l as [|[n [o|]] l IH]; intro res; cbn [present map mapM].
    - split.
      + injection 1 as <-. exists []. cbn. auto.
      + intros (l' & F & F2 & E). inversion F; subst. cbn in E. destruct res; [auto|easy].
    - cbn [fst snd]. split.
      + intro H. destruct (f (o, lookup n weights)) as [[r1 o1]|] eqn:E1; [|easy]. cbn [bind] in H.
        destruct (mapM f _) as [res'|] eqn:E2; [|easy]. cbn [bind] in H. injection H as <-.
        apply fit_one in E1 as (Ef & x1 & T & ->). destruct (proj1 (IH res') eq_refl) as (l1 & F1 & F2 & E).
        exists ((n, Some o1) :: l1). split; [constructor; auto; split; auto|]. cbn [present map fst snd]. split; [|now rewrite E].
        constructor; auto. exists x1. split; auto.
      + intros (l' & F & F2 & E). inversion F as [|? [n1 o1] ? l1 [N1 O1] F1]; subst. cbn [fst snd] in *. subst n1.
        destruct o1 as [o1|]; [|easy]. cbn [present map] in *. destruct res as [|[r1 o2] res]; [easy|]. cbn [map fst snd] in *.
        injection E as <- E. inversion F2 as [|? ? ? ? (x1 & T & Ex) F3]; subst. cbn [fst snd] in *.
        assert (f (o, lookup n weights) = Ok (weighted times (lookup n weights) x1, o1)) as ->.
        { apply fit_one. split; auto. eauto. }
        cbn [bind]. rewrite (proj2 (IH res)); [reflexivity|]. eauto.
    - rewrite IH. split; intros (l' & F & F2 & E).
      + exists ((n, None) :: l'). split; [constructor; [split; [reflexivity|exact I]|auto]|auto].
      + inversion F as [|? [n1 o1] ? l1 [N1 O1] F1]; subst. destruct o1; [easy|]. exists l1. auto. }
  assert (U : forall l l' ts, Forall2 (fitted_entry x y p) l l' -> map snd (present l') = ts -> update_transformer_list l ts = l').
  { clear. induction l as [|[n [o|]] l IH]; intros l' ts F E; inversion F as [|? [n1 o1] ? l1 [N1 O1] F1]; subst; auto; cbn [fst snd] in *; subst n1.
    - destruct o1 as [o1|]; [|easy]. cbn [update_transformer_list present map snd]. f_equal. now apply IH.
    - destruct o1 as [o1|]; [easy|]. cbn [update_transformer_list present]. f_equal. now apply IH. }
  split.
  - intro H. destruct (mapM f _) as [res|] eqn:E; [|easy]. cbn [bind] in H. apply G in E as (l1 & F1 & F2 & E).
    assert (l' = l1 /\ r = match map fst res with [] => None | _ => Some (map fst res) end) as [-> ->].
    { destruct res as [|a res]; injection H as <- <-.
      - split; auto. rewrite <- (U l l1 [] F1 E). clear - F1 E. symmetry. revert l1 F1 E. induction l as [|[n [o|]] l IH]; intros l1 F1 E; auto;
        inversion F1 as [|? [n1 o1] ? l2 [N1 O1] F2]; subst; cbn [fst snd] in *; subst n1; (destruct o1 as [o1|]; [try easy|try easy]).
        cbn [update_transformer_list]. f_equal. eapply IH; eauto.
      - split; [now apply U|auto]. }
    split; auto. exists (map fst res). auto.
  - intros [F (outs & F2 & ->)].
    assert (L : length (map snd (present l')) = length outs) by (rewrite map_length; eapply Forall2_length; eauto).
    set (res := combine outs (map snd (present l'))).
    assert (R1 : map fst res = outs). { unfold res. clear - L. revert outs L. induction (map snd (present l')); intros [|] H; cbn in *; try easy. f_equal. apply IHl. lia. }
    assert (R2 : map snd res = map snd (present l')). { unfold res. clear - L. revert outs L. induction (map snd (present l')); intros [|] H; cbn in *; try easy. f_equal. apply IHl. lia. }
    assert (E : mapM f (map (fun no => (snd no, lookup (fst no) weights)) (present l)) = Ok res).
    { apply G. exists l'. rewrite R1, R2. auto. }
    rewrite E. cbn [bind]. rewrite <- R1. destruct res as [|a res'].
    + cbn [map]. do 2 f_equal. cbn in R2. clear - F R2. revert l' F R2. induction l as [|[n [o|]] l IH]; intros l1 F1 E;
        inversion F1 as [|? [n1 o1] ? l2 [N1 O1] F2]; subst; auto; cbn [fst snd] in *; subst n1; (destruct o1 as [o1|]; [try easy|try easy]).
      f_equal. apply IH; auto.
    + cbn [map]. do 2 f_equal. apply U; auto.
Qed.

(** Without transformers there is no list. *)
Theorem list_union_none l weights x : present l = [] -> lfu_transform l weights x = Ok None.
Proof. intro H. apply list_union_transform_spec. exists []. rewrite H. auto. Qed.
End Union.

Example union_example : let l := [("w", Some (Window 1)); ("d", None); ("s", Some (Shift 0))]%string in
  let l' := [("w", Some (Window 1)); ("d", None); ("s", Some (Shift 5))]%string in
  validate_transformers ex_methods l = Ok tt /\
  lfu_fit_transform ex_methods (fun x w => map (Z.mul w) x) l [("s"%string, 10)] [5; 6; 7] None [] =
    Ok (l', Some [[6; 7]; [100; 110; 120]]) /\
  lfu_transform ex_methods (fun x w => map (Z.mul w) x) l' [("s"%string, 10)] [5; 6; 7] = Ok (Some [[6; 7]; [100; 110; 120]]).
Proof. repeat split. Qed.

Print Assumptions collection_transformer_spec.
Print Assumptions list_union_fit_transform_spec.
