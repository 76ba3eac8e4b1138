(* C93: the constructors and the parameter protocol. *)
From Coq Require Import List String ZArith QArith Bool Lia Sorting.Permutation Sorting.Sorted.
From Verif Require Import Np NpFacts CtorTypes CtorModel CtorSpec.
Import ListNotations.
Open Scope string_scope.
Open Scope list_scope.

(* --- dictionaries -------------------------------------------------------- *)

Lemma lookup_In k d v : lookup k d = Some v -> In (k, v) d.
Proof.
  induction d as [|[k' v'] d IH]; cbn; [discriminate|].
  destruct (String.eqb_spec k k') as [->|N]; [intros [= ->]; now left|auto].
Qed.

Lemma lookup_None k d : lookup k d = None <-> ~ In k (map fst d).
Proof.
  induction d as [|[k' v'] d IH]; cbn; [now split; auto|].
  destruct (String.eqb_spec k k') as [->|N]; [split; [discriminate|intros H; now destruct H; left]|].
  rewrite IH. split; [intros H [E|E]; [now apply N|now apply H]|intros H E; apply H; now right].
Qed.

Lemma In_lookup k v d : NoDup (map fst d) -> In (k, v) d -> lookup k d = Some v.
Proof.
  induction d as [|[k' v'] d IH]; cbn; [easy|]. intros N [E|I]; inversion_clear N.
  - injection E as -> ->. now rewrite String.eqb_refl.
  - destruct (String.eqb_spec k k') as [->|_]; [|auto].
    destruct H. change k' with (fst (k', v)). now apply in_map.
Qed.

Lemma lookup_put k v d a : lookup a (put k v d) = if a =? k then Some v else lookup a d.
Proof.
  induction d as [|[k' v'] d IH]; cbn; [reflexivity|].
  destruct (String.eqb_spec k k') as [->|N]; cbn.
  - now destruct (String.eqb_spec a k').
  - destruct (String.eqb_spec a k') as [->|M]; [|apply IH].
    now destruct (String.eqb_spec k' k) as [<-|_].
Qed.

Lemma put_new k v d : ~ In k (map fst d) -> put k v d = d ++ [(k, v)].
Proof.
  induction d as [|[k' v'] d IH]; cbn; [easy|]. intros N.
  destruct (String.eqb_spec k k') as [->|_]; [now destruct N; left|]. f_equal. apply IH. tauto.
Qed.

Lemma mem_In k l : mem k l = true <-> In k l.
Proof.
  unfold mem. rewrite existsb_exists. split.
  - intros (x & I & E). now apply String.eqb_eq in E as ->.
  - intros I. exists k. now rewrite String.eqb_refl.
Qed.

Lemma nodup_NoDup l : nodup l = true <-> NoDup l.
Proof.
  induction l as [|k l IH]; cbn; [split; constructor|].
  rewrite andb_true_iff, negb_true_iff, IH. split.
  - intros [M N]. constructor; [|easy]. intros I. apply mem_In in I. congruence.
  - intros N. inversion_clear N. split; [|easy]. destruct (mem k l) eqn:E; [|easy].
    now apply mem_In in E.
Qed.

(* --- the binding of arguments --------------------------------------------- *)

Lemma bind_rest_ok ps kw r : bind_rest ps kw = Ok r ->
  map fst r = map fst ps /\
  forall i p d, nth_error ps i = Some (p, d) -> exists v, nth_error r i = Some (p, v) /\
    (lookup p kw = Some v \/ lookup p kw = None /\ d = Some v).
Proof.
  revert r. induction ps as [|[p d] ps IH]; intros r; cbn.
  - intros [= <-]. split; [easy|]. now intros [|i].
  - assert (K : forall v, (do r <- bind_rest ps kw; Ok ((p, v) :: r)) = Ok r ->
      (lookup p kw = Some v \/ lookup p kw = None /\ d = Some v) ->
      map fst r = p :: map fst ps /\
      forall i p0 d0, nth_error ((p, d) :: ps) i = Some (p0, d0) ->
        exists v, nth_error r i = Some (p0, v) /\
        (lookup p0 kw = Some v \/ lookup p0 kw = None /\ d0 = Some v)).
    { intros v. destruct (bind_rest ps kw) as [r'|]; [|discriminate].
      intros [= <-] H. destruct (IH _ eq_refl) as [M G]. split; [cbn; now rewrite M|].
      intros [|i] p0 d0; cbn; [intros [= <- <-]; now exists v|apply G]. }
    destruct (lookup p kw) as [v|] eqn:L; [intros E; apply (K v E); now left|].
    destruct d as [v|]; [|discriminate]. intros E; apply (K v E); now right.
Qed.

Lemma bind_rest_total ps kw :
  (forall i p, nth_error ps i = Some (p, None) -> In p (map fst kw)) ->
  exists r, bind_rest ps kw = Ok r.
Proof.
  induction ps as [|[p d] ps IH]; cbn; [eauto|]. intros H.
  destruct IH as [r ->]; [intros i; apply (H (S i))|].
  destruct (lookup p kw) as [v|] eqn:L; [cbn; eauto|]. destruct d as [v|]; [cbn; eauto|].
  apply lookup_None in L. destruct L. now apply (H 0%nat).
Qed.

Lemma bind_rest_err ps kw e : bind_rest ps kw = Err e -> e = TypeError.
Proof.
  induction ps as [|[p d] ps IH]; cbn; [discriminate|].
  destruct (lookup p kw), d; try (now intros [= <-]); destruct (bind_rest ps kw); try discriminate;
    intros [= <-]; now apply IH.
Qed.

Lemma bind_args_err ps pos kw e : bind_args ps pos kw = Err e -> e = TypeError.
Proof.
  revert ps. induction pos as [|v pos IH]; intros ps; cbn.
  - destruct (_ && _); [apply bind_rest_err|now intros [= <-]].
  - destruct ps as [|[p d] ps]; [now intros [= <-]|].
    destruct (bind_args ps pos kw) eqn:E; [discriminate|]. intros [= <-]. now apply (IH ps).
Qed.

Lemma bind_args_ok ps pos kw r : bind_args ps pos kw = Ok r ->
  map fst r = map fst ps /\
  forall i p d, nth_error ps i = Some (p, d) -> exists v, nth_error r i = Some (p, v) /\
    (nth_error pos i = Some v \/
     nth_error pos i = None /\ lookup p kw = Some v \/
     nth_error pos i = None /\ lookup p kw = None /\ d = Some v).
Proof.
  revert ps r. induction pos as [|v pos IH]; intros ps r; cbn.
  - destruct (_ && _); [|discriminate]. intros E. apply bind_rest_ok in E as [M G]. split; [easy|].
    intros i p d N. destruct (G i p d N) as (v & H & K). exists v. split; [easy|].
    destruct i; cbn; tauto.
  - destruct ps as [|[p d] ps]; [discriminate|].
    destruct (bind_args ps pos kw) as [r'|] eqn:E; [|discriminate]. intros [= <-].
    destruct (IH _ _ E) as [M G]. split; [cbn; now rewrite M|].
    intros [|i] p0 d0; cbn; [intros [= <- <-]; exists v; auto|apply G].
Qed.

Lemma acceptable_cons p d ps v pos kw :
  acceptable ((p, d) :: ps) (v :: pos) kw <-> acceptable ps pos kw.
Proof.
  unfold acceptable. cbn [List.length map fst]. split; intros (L & N & K & R); (split; [lia|split; [easy|split]]).
  - intros q I. destruct (K q I) as ([|i] & E & H); [lia|]. exists i. split; [easy|lia].
  - intros i q E. destruct (R (S i) q E); [left; lia|now right].
  - intros q I. destruct (K q I) as (i & E & H). exists (S i). split; [easy|lia].
  - intros [|i] q; [left; lia|]. intros E. destruct (R i q E); [left; lia|now right].
Qed.

Lemma bind_args_iff ps pos kw : (exists r, bind_args ps pos kw = Ok r) <-> acceptable ps pos kw.
Proof.
  revert ps. induction pos as [|v pos IH]; intros ps.
  - cbn. split.
    + intros [r E]. destruct (_ && _) eqn:B; [|discriminate]. apply andb_true_iff in B as [B1 B2].
      rewrite forallb_forall in B1. apply nodup_NoDup in B2. apply bind_rest_ok in E as [_ E].
      split; [cbn; lia|]. split; [easy|]. split.
      * intros p I. apply B1, mem_In, In_nth_error in I as [i I]. exists i. split; [easy|cbn; lia].
      * intros i p N. right. destruct (E i p None N) as (v & _ & [K|[_ K]]); [|discriminate].
        apply lookup_In in K. change p with (fst (p, v)). now apply in_map.
    + intros (_ & N & K & R).
      assert (B : forallb (fun k => mem k (map fst ps)) (map fst kw) = true).
      { apply forallb_forall. intros p I. destruct (K p I) as (i & E & _). apply mem_In.
        now apply nth_error_In in E. }
      apply nodup_NoDup in N. rewrite B, N. apply bind_rest_total.
      intros i p E. now destruct (R i p E) as [H|H]; [cbn in H; lia|].
  - destruct ps as [|[p d] ps].
    + cbn. split; [now intros [r E]|]. intros (L & _). cbn in L. lia.
    + rewrite acceptable_cons, <- IH. cbn. split; intros [r E].
      * destruct (bind_args ps pos kw) as [r'|]; [eauto|discriminate].
      * rewrite E. cbn. eauto.
Qed.

Lemma bind_args_given ps pos kw r p v : NoDup (map fst ps) -> bind_args ps pos kw = Ok r ->
  (lookup p r = Some v <-> given ps pos kw p v).
Proof.
  intros N E.
  assert (A : acceptable ps pos kw) by (apply bind_args_iff; eauto).
  destruct A as (_ & NK & _). destruct (bind_args_ok _ _ _ _ E) as [M G].
  assert (NR : NoDup (map fst r)) by now rewrite M.
  split.
  - intros L. apply lookup_In in L. destruct (In_nth_error _ _ L) as [i Hi].
    assert (J : nth_error (map fst ps) i = Some p) by (rewrite <- M; now apply (map_nth_error fst) in Hi).
    destruct (nth_error ps i) as [[p' d]|] eqn:Ei.
    2:{ apply nth_error_None in Ei. assert (nth_error (map fst ps) i = None)
          by (apply nth_error_None; now rewrite map_length). congruence. }
    rewrite (map_nth_error fst _ _ Ei) in J. injection J as ->.
    exists i, d. split; [easy|]. destruct (G i p d Ei) as (v' & H & K).
    replace v' with v in * by congruence.
    destruct K as [K|[[K1 K2]|(K1 & K2 & K3)]]; [now left|right; left|right; right].
    + split; [easy|now apply lookup_In].
    + now apply lookup_None in K2.
  - intros (i & d & Ei & K). destruct (G i p d Ei) as (v' & H & K').
    apply nth_error_In in H. apply (In_lookup _ _ _ NR) in H. rewrite H. f_equal.
    destruct K as [K|[[K1 K2]|(K1 & K2 & K3)]], K' as [L|[[L1 L2]|(L1 & L2 & L3)]]; try congruence.
    + apply (In_lookup _ _ _ NK) in K2. congruence.
    + apply lookup_None in L2. destruct L2. change p with (fst (p, v)). now apply in_map.
    + apply lookup_In in L2. destruct K2. change p with (fst (p, v')). now apply in_map.
Qed.

(* --- the bodies -------------------------------------------------------------- *)

Definition plain (k : ctor) : Prop :=
  c_body k = map (fun p => Assign (fst p) (Arg (fst p))) (c_params k).

Lemma run_plain (rest : list (string * option val)) args done todo :
  args = done ++ todo -> NoDup (map fst args) -> map fst todo = map fst rest ->
  run (map (fun p => Assign (fst p) (Arg (fst p))) rest) args done = Ok args.
Proof.
  revert done todo. induction rest as [|[p d] rest IH]; intros done todo E N M.
  - destruct todo; [|discriminate]. cbn. now rewrite E, app_nil_r.
  - destruct todo as [|[q v] todo]; [discriminate|]. injection M as -> M.
    cbn -[lookup put]. rewrite (In_lookup p v args N) by (rewrite E; apply in_or_app; right; now left).
    cbn -[lookup put].
    assert (Np : ~ In p (map fst done)).
    { intros I. rewrite E, map_app in N. cbn in N. apply NoDup_remove_2 in N. apply N, in_or_app. now left. }
    rewrite put_new by easy. apply (IH _ todo); [|easy|easy]. now rewrite <- app_assoc.
Qed.

Lemma construct_plain k pos kw args : plain k -> NoDup (map fst (c_params k)) ->
  bind_args (c_params k) pos kw = Ok args -> construct k pos kw = Ok args.
Proof.
  intros P N E. unfold construct. rewrite E, P. cbn. destruct (bind_args_ok _ _ _ _ E) as [M _].
  apply (run_plain _ _ [] args); [easy|now rewrite M|easy].
Qed.

(* the two classes of local homology also keep the parameter under another name *)
Definition aliased (k : ctor) : option string :=
  if c_name k =? "KNeighborsLocalVietorisRips" then Some "n_neighbors"
  else if c_name k =? "RadiusLocalVietorisRips" then Some "radii" else None.

Definition checks (k : ctor) : bool :=
  nodup (map fst (c_params k)) && negb (mem "neighborhood_params" (map fst (c_params k))).

Lemma classes_checked : forallb checks classes = true.
Proof. vm_compute. reflexivity. Qed.

Lemma class_names k : In k classes ->
  NoDup (map fst (c_params k)) /\ ~ In "neighborhood_params" (map fst (c_params k)).
Proof.
  intros I. pose proof classes_checked as H. rewrite forallb_forall in H. specialize (H k I).
  unfold checks in H. apply andb_true_iff in H as [H1 H2]. split; [now apply nodup_NoDup|].
  intros J. apply mem_In in J. now rewrite J in H2.
Qed.

Lemma class_plain k : In k classes ->
  plain k \/ k = KNeighborsLocalVietorisRips \/ k = RadiusLocalVietorisRips.
Proof.
  unfold classes. cbn [In]. intros H.
  repeat (destruct H as [<-|H]; [first [left; reflexivity|right; left; reflexivity|right; right; reflexivity]|]).
  easy.
Qed.

(** what an accepted call leaves in the object *)
Lemma construct_ok k pos kw args : In k classes -> bind_args (c_params k) pos kw = Ok args ->
  exists o, construct k pos kw = Ok o /\
    (forall p, In p (map fst (c_params k)) -> lookup p o = lookup p args) /\
    (forall a, ~ In a (map fst (c_params k)) ->
       lookup a o = match aliased k with
                    | Some q => if a =? "neighborhood_params" then lookup q args else None
                    | None => None
                    end).
Proof.
  intros I E. destruct (class_names k I) as [N _]. destruct (bind_args_ok _ _ _ _ E) as [M _].
  destruct (class_plain k I) as [P|P].
  - exists args. split; [now apply construct_plain|]. split; [easy|]. intros a J. rewrite <- M in J.
    assert (A : aliased k = None).
    { unfold aliased. revert I P. clear. unfold classes. cbn [In]. intros H.
      repeat (destruct H as [<-|H]; [first [reflexivity|unfold plain; discriminate]|]). easy. }
    rewrite A. now apply lookup_None.
  - assert (L : exists v1 v2 v3 v4 v5, exists q, aliased k = Some q /\
      args = [("metric", v1); ("homology_dimensions", v2); (q, v3); ("collapse_edges", v4); ("n_jobs", v5)] /\
      map fst (c_params k) = ["metric"; "homology_dimensions"; q; "collapse_edges"; "n_jobs"] /\
      construct k pos kw = Ok [(q, v3); ("metric", v1); ("homology_dimensions", v2);
        ("neighborhood_params", v3); ("collapse_edges", v4); ("n_jobs", v5)]).
    { unfold construct. rewrite E.
      destruct P as [->| ->]; cbn in M;
        destruct args as [|[? v1] [|[? v2] [|[? v3] [|[? v4] [|[? v5] [|? ?]]]]]]; try discriminate;
        injection M as -> -> -> -> ->; exists v1, v2, v3, v4, v5; eexists;
        (split; [reflexivity|]; split; [reflexivity|]; split; [reflexivity|]; reflexivity). }
    destruct L as (v1 & v2 & v3 & v4 & v5 & q & A & -> & M' & C).
    assert (Q : q = "n_neighbors" \/ q = "radii").
    { unfold aliased in A. destruct (_ =? _); [left; congruence|]. destruct (_ =? _); [right; congruence|discriminate]. }
    eexists. split; [exact C|]. rewrite M', A. split.
    + intros p J. cbn in J. destruct Q as [-> | ->]; destruct J as [<-|[<-|[<-|[<-|[<-|[]]]]]]; reflexivity.
    + intros a J. cbn in J. cbn [lookup].
      assert (X : forall b, In b ["metric"; "homology_dimensions"; q; "collapse_edges"; "n_jobs"] -> (a =? b) = false).
      { intros b B. destruct (String.eqb_spec a b) as [->|]; [|easy]. destruct J. exact B. }
      rewrite (X q), (X "metric"), (X "homology_dimensions"), (X "collapse_edges"), (X "n_jobs") by (cbn; tauto).
      destruct Q as [-> | ->]; cbn; now destruct (a =? "neighborhood_params").
Qed.

(** Every accepted call stores each argument (or default), unchanged, in the
    attribute of the parameter's name, sets no other attribute - but for the local
    homology classes, which copy n_neighbors or radii to neighborhood_params - and
    validates nothing; any other call is a TypeError. *)
Theorem constructor_stores_its_arguments k : In k classes -> forall pos kw,
  (acceptable (c_params k) pos kw -> exists o, construct k pos kw = Ok o /\
     (forall p v, In p (map fst (c_params k)) -> (has o p v <-> given (c_params k) pos kw p v)) /\
     (forall a v, ~ In a (map fst (c_params k)) ->
        (has o a v <->
         a = "neighborhood_params" /\
         (c_name k = "KNeighborsLocalVietorisRips" /\ has o "n_neighbors" v \/
          c_name k = "RadiusLocalVietorisRips" /\ has o "radii" v)))) /\
  (~ acceptable (c_params k) pos kw -> construct k pos kw = Err TypeError).
Proof.
  intros I pos kw. destruct (class_names k I) as [N _]. split.
  - intros A. apply bind_args_iff in A as [args E].
    destruct (construct_ok k pos kw args I E) as (o & C & P1 & P2). exists o. split; [easy|]. split.
    + intros p v J. unfold has. rewrite (P1 p J). now apply bind_args_given.
    + intros a v J. unfold has. rewrite (P2 a J).
      assert (K : (c_name k = "KNeighborsLocalVietorisRips" -> In "n_neighbors" (map fst (c_params k))) /\
                  (c_name k = "RadiusLocalVietorisRips" -> In "radii" (map fst (c_params k)))).
      { clear - I. unfold classes in I. cbn [In] in I.
        repeat (destruct I as [<-|I]; [split; first [intros _; apply mem_In; reflexivity|intros H; vm_compute in H; discriminate H]|]). easy. }
      destruct K as [K1 K2]. unfold aliased.
      destruct (String.eqb_spec (c_name k) "KNeighborsLocalVietorisRips") as [E1|E1].
      * rewrite <- (P1 "n_neighbors") by auto.
        destruct (String.eqb_spec a "neighborhood_params") as [->|Na].
        -- split; [tauto|]. intros [_ [[_ H]|[H _]]]; [easy|congruence].
        -- split; [discriminate|tauto].
      * destruct (String.eqb_spec (c_name k) "RadiusLocalVietorisRips") as [E2|E2].
        -- rewrite <- (P1 "radii") by auto.
           destruct (String.eqb_spec a "neighborhood_params") as [->|Na].
           ++ split; [tauto|]. intros [_ [[H _]|[_ H]]]; [congruence|easy].
           ++ split; [discriminate|tauto].
        -- split; [discriminate|]. intros [_ [[H _]|[H _]]]; congruence.
  - intros A. unfold construct. destruct (bind_args (c_params k) pos kw) as [r|e] eqn:E.
    + destruct A. apply bind_args_iff. eauto.
    + apply bind_args_err in E as ->. reflexivity.
Qed.
Print Assumptions constructor_stores_its_arguments.

Example ex_construct :
  construct Scaler [VStr "heat"] [("n_jobs", VInt 2)] =
    Ok [("metric", VStr "heat"); ("metric_params", VNone); ("function", VFun "numpy.max"); ("n_jobs", VInt 2)] /\
  construct KNeighborsLocalVietorisRips [] [("n_neighbors", VTuple [3#1; 5#1])%Q] =
    Ok [("n_neighbors", VTuple [3#1; 5#1]%Q); ("metric", VStr "euclidean");
        ("homology_dimensions", VTuple [1#1; 2#1]%Q); ("neighborhood_params", VTuple [3#1; 5#1]%Q);
        ("collapse_edges", VBool false); ("n_jobs", VNone)] /\
  construct Scaler [VStr "heat"] [("metric", VStr "betti")] = Err TypeError /\
  construct CollectionTransformer [] [] = Err TypeError.
Proof. repeat split. Qed.
Example ex_acceptable : acceptable (c_params Scaler) [VStr "heat"] [("n_jobs", VInt 2)].
Proof. apply bind_args_iff. eexists. reflexivity. Qed.
