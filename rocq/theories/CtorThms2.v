(* C93: documented defaults, get_params, set_params and clone. *)
From Coq Require Import List String ZArith QArith Bool Lia Sorting.Permutation Sorting.Sorted.
From Verif Require Import Np NpFacts CtorTypes CtorModel CtorSpec CtorThms.
Import ListNotations.
Open Scope string_scope.
Open Scope list_scope.

(* --- the documented parameters and defaults --------------------------------- *)

(** The documentation of each class lists exactly the parameters it takes. *)
Theorem documented_parameters :
  map (fun k => (c_name k, map fst (c_params k))) classes =
  map (fun d => (fst d, map fst (snd d))) documented.
Proof. vm_compute. reflexivity. Qed.
Print Assumptions documented_parameters.

(** the parameters whose documented default is not the one of the signature *)
Definition misdocumented : list (string * string) :=
  [("GraphGeodesicDistance", "directed"); ("RadialFiltration", "radius");
   ("DensityFiltration", "radius"); ("KNeighborsLocalVietorisRips", "n_neighbors");
   ("RadiusLocalVietorisRips", "radii")].

Definition same_valueb (a b : val) : bool :=
  match number a, number b with
  | Some x, Some y => Qeq_bool x y
  | _, _ => if val_eq_dec a b then true else false
  end.

Lemma same_valueb_ok a b : same_valueb a b = true -> same_value a b.
Proof.
  unfold same_valueb, same_value. destruct (number a), (number b);
    try (now destruct (val_eq_dec a b)). apply Qeq_bool_eq.
Qed.

Definition row_ok (c : string) (s d : string * option val) : bool :=
  (fst s =? fst d) &&
  (existsb (fun m => (fst m =? c) && (snd m =? fst s)) misdocumented ||
   match snd s, snd d with
   | Some x, Some y => same_valueb x y
   | None, None => true
   | _, _ => false
   end).

Fixpoint all2 {A B} (f : A -> B -> bool) (l : list A) (m : list B) : bool :=
  match l, m with
  | [], [] => true
  | a :: l', b :: m' => f a b && all2 f l' m'
  | _, _ => false
  end.

Lemma documented_checked :
  all2 (fun k d => (c_name k =? fst d) && all2 (row_ok (c_name k)) (c_params k) (snd d)) classes documented = true.
Proof. vm_compute. reflexivity. Qed.

Lemma all2_Forall2 {A B} (f : A -> B -> bool) l m :
  all2 f l m = true -> Forall2 (fun a b => f a b = true) l m.
Proof.
  revert m. induction l as [|a l IH]; intros [|b m]; cbn; try discriminate; [constructor|].
  rewrite andb_true_iff. intros [H K]. constructor; auto.
Qed.

Lemma documented_names : NoDup (map fst documented).
Proof. apply nodup_NoDup. vm_compute. reflexivity. Qed.

Lemma doc_row k ps : In k classes -> In (c_name k, ps) documented ->
  Forall2 (fun s d => row_ok (c_name k) s d = true) (c_params k) ps.
Proof.
  intros I J. pose proof (all2_Forall2 _ _ _ documented_checked) as F.
  assert (X : exists d, In d documented /\ fst d = c_name k /\ all2 (row_ok (c_name k)) (c_params k) (snd d) = true).
  { revert F I. generalize classes, documented. induction 1 as [|a b l m H F IH]; [easy|].
    intros [<-|I].
    - apply andb_true_iff in H as [H1 H2]. apply String.eqb_eq in H1. exists b. split; [now left|auto].
    - destruct (IH I) as (d & D & E). exists d. split; [now right|easy]. }
  destruct X as ([n qs] & D & E & G). cbn in E, G. subst n.
  assert (qs = ps) as <-.
  { revert D J. pose proof documented_names as N. revert N. generalize documented. clear.
    induction l as [|[a b] l IH]; cbn; [easy|]. intros N. inversion_clear N. intros [D|D] [J|J].
    - congruence.
    - injection D as -> ->. destruct H. change (c_name k) with (fst (c_name k, ps)). now apply in_map.
    - injection J as -> ->. destruct H. change (c_name k) with (fst (c_name k, qs)). now apply in_map.
    - auto. }
  now apply all2_Forall2.
Qed.

(** A parameter that a call leaves out has its documented default in the object,
    and a parameter documented without default cannot be left out - for all the
    parameters but the five below. *)
Theorem documented_defaults k pos kw o ps i p d :
  In k classes -> In (c_name k, ps) documented -> nth_error ps i = Some (p, d) ->
  ~ In (c_name k, p) [("GraphGeodesicDistance", "directed"); ("RadialFiltration", "radius");
     ("DensityFiltration", "radius"); ("KNeighborsLocalVietorisRips", "n_neighbors");
     ("RadiusLocalVietorisRips", "radii")] ->
  construct k pos kw = Ok o -> (List.length pos <= i)%nat -> ~ In p (map fst kw) ->
  exists v w, d = Some v /\ has o p w /\ same_value w v.
Proof.
  intros I J E X C L Nk. pose proof (doc_row k ps I J) as F.
  assert (R : exists s, nth_error (c_params k) i = Some s /\ row_ok (c_name k) s (p, d) = true).
  { revert E F. generalize (c_params k). clear. revert i. induction ps as [|a ps IH]; intros [|i] l E F;
      try discriminate; inversion F; subst; cbn in *.
    - injection E as ->. eauto.
    - eapply IH; eauto. }
  destruct R as ([q s] & Es & R). unfold row_ok in R. cbn [fst snd] in R. apply andb_true_iff in R as [R1 R2].
  apply String.eqb_eq in R1 as ->. apply orb_true_iff in R2 as [R2|R2].
  { destruct X. apply existsb_exists in R2 as ([a b] & M & H). cbn [fst snd] in H.
    apply andb_true_iff in H as [H1 H2]. apply String.eqb_eq in H1 as ->, H2 as ->. exact M. }
  destruct (constructor_stores_its_arguments k I pos kw) as [A B].
  assert (AC : acceptable (c_params k) pos kw).
  { apply bind_args_iff. unfold construct in C. destruct (bind_args _ _ _) as [r|]; [eauto|discriminate]. }
  destruct (A AC) as (o' & C' & P & _). rewrite C in C'. injection C' as <-.
  assert (Ip : In p (map fst (c_params k))).
  { apply nth_error_In in Es. change p with (fst (p, s)). now apply in_map. }
  destruct s as [w|].
  - destruct d as [v|]; [|discriminate]. exists v, w. split; [easy|]. split; [|now apply same_valueb_ok].
    apply P; [easy|]. exists i, (Some w). split; [easy|]. right; right. split; [now apply nth_error_None|auto].
  - destruct AC as (_ & _ & _ & Q). destruct (Q i p Es); [lia|easy].
Qed.
Print Assumptions documented_defaults.

(** Five defaults differ from the documentation: leaving the parameter out is not
    the same as passing the documented default [d]; it is the same as passing [w]. *)
Theorem documented_defaults_refuted :
  Forall (fun kpdw => let '(k, p, d, w) := kpdw in
    exists ps, In (c_name k, ps) documented /\ In (p, Some d) ps /\
    exists o, construct k [] [] = Ok o /\ has o p w /\ ~ same_value w d)
  [(GraphGeodesicDistance, "directed", VBool true, VBool false);
   (RadialFiltration, "radius", VNone, VInf);
   (DensityFiltration, "radius", VFloat (1#1), VInt 3);
   (KNeighborsLocalVietorisRips, "n_neighbors", VTuple [10#1; 50#1]%Q, VTuple [1#1; 2#1]%Q);
   (RadiusLocalVietorisRips, "radii", VTuple [0#1; 1#1]%Q, VTuple [1#1; 2#1]%Q)].
Proof.
  assert (R : forall k p d w ps, In (c_name k, ps) documented -> In (p, Some d) ps ->
    (exists o, construct k [] [] = Ok o /\ has o p w /\ ~ same_value w d) ->
    exists ps, In (c_name k, ps) documented /\ In (p, Some d) ps /\
    exists o, construct k [] [] = Ok o /\ has o p w /\ ~ same_value w d) by eauto.
  repeat constructor; (eapply R;
    [unfold documented; cbn [In c_name];
     repeat (first [left; reflexivity|right])
    |cbn [In]; repeat (first [left; reflexivity|right])
    |eexists; split; [reflexivity|]; split; [reflexivity|];
     unfold same_value; cbn; try discriminate; intros H; vm_compute in H; discriminate H]).
Qed.
Print Assumptions documented_defaults_refuted.

Example ex_documented : In ("Scaler", [("metric", Some (VStr "bottleneck")); ("metric_params", Some VNone);
  ("function", Some (VFun "numpy.max")); ("n_jobs", Some VNone)]) documented.
Proof. unfold documented. cbn [In]. repeat (first [left; reflexivity|right]). Qed.

(* --- get_params ----------------------------------------------------------------- *)

Lemma insert_perm s l : Permutation (insert s l) (s :: l).
Proof.
  induction l as [|t l IH]; cbn; [easy|]. destruct (String.leb s t); [easy|].
  rewrite IH. apply perm_swap.
Qed.

Lemma sort_perm l : Permutation (sort l) l.
Proof. induction l as [|s l IH]; cbn; [easy|]. rewrite insert_perm. now constructor. Qed.

Definition before (s t : string) : Prop := String.compare s t = Lt.

Fixpoint sortedb (l : list string) : bool :=
  match l with
  | s :: ((t :: _) as l') => match String.compare s t with Lt => true | _ => false end && sortedb l'
  | _ => true
  end.

Lemma sortedb_ok l : sortedb l = true -> Sorted before l.
Proof.
  induction l as [|s l IH]; [constructor|]. destruct l as [|t l]; [repeat constructor|].
  cbn [sortedb]. rewrite andb_true_iff. intros [H K]. constructor; [now apply IH|].
  constructor. unfold before. now destruct (String.compare s t).
Qed.

Lemma names_sorted : forallb (fun k => sortedb (sort (map fst (c_params k)))) classes = true.
Proof. vm_compute. reflexivity. Qed.

Definition complete (k : ctor) (o : dict) : Prop :=
  forall p, In p (map fst (c_params k)) -> exists v, has o p v.

Lemma get_params_ok k o : complete k o -> exists ps, get_params k o = Ok ps /\
  map fst ps = sort (map fst (c_params k)) /\ (forall p v, In (p, v) ps -> has o p v).
Proof.
  unfold complete, get_params. intros H.
  assert (K : forall p, In p (sort (map fst (c_params k))) -> exists v, has o p v)
    by (intros p I; apply H; apply (Permutation_in _ (sort_perm _) I)).
  revert K. generalize (sort (map fst (c_params k))). clear. induction l as [|p l IH]; cbn; intros K.
  - exists []. now repeat split.
  - destruct (K p) as [v E]; [now left|]. rewrite E.
    destruct IH as (ps & -> & M & G); [intros q I; apply K; now right|].
    exists ((p, v) :: ps). cbn. rewrite M. split; [easy|]. split; [easy|].
    intros q w [[= <- <-]|I]; [easy|auto].
Qed.

Lemma set_all_complete k valid o kw : complete k o -> complete k (fst (set_all valid o kw)).
Proof.
  revert o. induction kw as [|[q v] kw IH]; intros o H; cbn; [auto|].
  destruct (mem q valid); [|auto]. apply IH. intros r Ir. unfold has. rewrite lookup_put.
  destruct (r =? q); [eauto|now apply H].
Qed.

Lemma life_complete k o : In k classes ->
  life (construct k) (set_params k) (map fst (c_params k)) o -> complete k o.
Proof.
  intros I L. induction L as [pos kw o C|o kw L IH|o a v L IH A|o a L IH A]; intros p Ip.
  - assert (AC : exists args, bind_args (c_params k) pos kw = Ok args)
      by (unfold construct in C; destruct (bind_args _ _ _) as [r|]; [eauto|discriminate]).
    destruct AC as [args E]. destruct (construct_ok k pos kw args I E) as (o' & C' & P & _).
    rewrite C in C'. injection C' as <-. destruct (bind_args_ok _ _ _ _ E) as [M _].
    unfold has. rewrite (P p Ip). destruct (lookup p args) as [v|] eqn:X; [eauto|].
    apply lookup_None in X. now rewrite M in X.
  - unfold set_params. destruct kw as [|pv kw]; [now apply IH|].
    destruct (get_params k o) as [ps|]; [|now apply IH]. apply (set_all_complete k (map fst ps) o (pv :: kw) IH p Ip).
  - unfold has. rewrite lookup_put. destruct (String.eqb_spec p a) as [->|N]; [easy|now apply IH].
  - destruct (IH p Ip) as [v H]. exists v. revert H. unfold has.
    assert (N : p <> a) by (intros ->; easy). revert N. clear.
    induction o as [|[q w] o IHo]; cbn; [easy|]. intros N.
    destruct (String.eqb_spec q a) as [->|Nq]; cbn.
    + destruct (String.eqb_spec p a) as [->|_]; [easy|auto].
    + destruct (p =? q); [easy|auto].
Qed.

(** get_params never fails on an object in use, whatever was done to it: it returns
    the parameters of the constructor in alphabetical order with the values they
    have. *)
Theorem get_params_returns_the_parameters k o : In k classes ->
  life (construct k) (set_params k) (map fst (c_params k)) o ->
  exists ps, get_params k o = Ok ps /\
    Permutation (map fst ps) (map fst (c_params k)) /\
    Sorted (fun s t => String.compare s t = Lt) (map fst ps) /\
    (forall p v, In (p, v) ps <-> In p (map fst (c_params k)) /\ has o p v).
Proof.
  intros I L. destruct (get_params_ok k o (life_complete k o I L)) as (ps & E & M & G).
  exists ps. split; [easy|]. rewrite M. split; [apply sort_perm|]. split.
  - apply sortedb_ok. pose proof names_sorted as H. rewrite forallb_forall in H. now apply H.
  - assert (S : forall p, In p (map fst ps) <-> In p (map fst (c_params k)))
      by (intros p; rewrite M; split; apply Permutation_in; [apply sort_perm|apply Permutation_sym, sort_perm]).
    intros p v. split.
    + intros H. split; [|now apply G]. apply S. change p with (fst (p, v)). now apply in_map.
    + intros [Ip H]. apply S in Ip. apply in_map_iff in Ip as ([q w] & <- & J). cbn in *.
      specialize (G _ _ J). unfold has in *. congruence.
Qed.
Print Assumptions get_params_returns_the_parameters.

(* --- set_params -------------------------------------------------------------------- *)

Lemma set_all_ok valid o kw : (forall p, In p (map fst kw) -> In p valid) -> NoDup (map fst kw) ->
  exists o', set_all valid o kw = (o', Ok tt) /\ overwritten o kw o'.
Proof.
  revert o. induction kw as [|[p v] kw IH]; intros o V N; cbn.
  - exists o. split; [easy|]. split; [easy|auto].
  - assert (mem p valid = true) as -> by (apply mem_In, V; now left). inversion_clear N as [|? ? N1 N2].
    destruct (IH (put p v o)) as (o' & E & W1 & W2); [intros q Iq; apply V; now right|easy|].
    exists o'. split; [easy|]. split.
    + intros q w [[= <- <-]|J]; [|now apply W1]. unfold has. rewrite (W2 p N1), lookup_put. now rewrite String.eqb_refl.
    + intros a Na. cbn in Na. rewrite W2, lookup_put by tauto.
      destruct (String.eqb_spec a p) as [->|_]; [now destruct Na; left|easy].
Qed.

Lemma NoDup_left {A} (l m : list A) : NoDup (l ++ m) -> NoDup l.
Proof.
  induction l as [|a l IH]; cbn; [constructor|]. intros N. inversion_clear N. constructor; [|auto].
  intros I. apply H. apply in_or_app. now left.
Qed.

Lemma set_all_app valid o kw1 p v kw2 : (forall q, In q (map fst kw1) -> In q valid) -> ~ In p valid ->
  set_all valid o (kw1 ++ (p, v) :: kw2) = (fst (set_all valid o kw1), Err ValueError).
Proof.
  intros V Np. revert o V. induction kw1 as [|[q w] kw1 IH]; intros o V; cbn.
  - destruct (mem p valid) eqn:E; [now apply mem_In in E|easy].
  - assert (mem q valid = true) as -> by (apply mem_In, V; now left). apply IH. intros r Ir. apply V. now right.
Qed.

(** set_params overwrites exactly the named parameters; at the first name that is
    no parameter it raises ValueError, and the parameters named before it have been
    overwritten. *)
Theorem set_params_overwrites k o kw : In k classes ->
  life (construct k) (set_params k) (map fst (c_params k)) o -> NoDup (map fst kw) ->
  ((forall p, In p (map fst kw) -> In p (map fst (c_params k))) ->
     exists o', set_params k o kw = (o', Ok tt) /\ overwritten o kw o') /\
  (forall kw1 p v kw2, kw = kw1 ++ (p, v) :: kw2 ->
     (forall q, In q (map fst kw1) -> In q (map fst (c_params k))) ->
     ~ In p (map fst (c_params k)) ->
     exists o', set_params k o kw = (o', Err ValueError) /\ overwritten o kw1 o').
Proof.
  intros I L N. destruct (get_params_ok k o (life_complete k o I L)) as (ps & E & M & _).
  assert (S : forall p, In p (map fst ps) <-> In p (map fst (c_params k)))
    by (intros p; rewrite M; split; apply Permutation_in; [apply sort_perm|apply Permutation_sym, sort_perm]).
  assert (U : kw <> [] -> set_params k o kw = set_all (map fst ps) o kw)
    by (intros X; unfold set_params; rewrite E; now destruct kw).
  split.
  - intros V. destruct kw as [|pv kw].
    + exists o. split; [easy|]. split; [easy|auto].
    + rewrite U by easy. apply set_all_ok; [intros p Ip; now apply S, V|easy].
  - intros kw1 p v kw2 -> V Np. rewrite U by now destruct kw1.
    rewrite set_all_app; [|intros q Iq; now apply S, V|now rewrite S].
    rewrite map_app in N. apply NoDup_left in N.
    destruct (set_all_ok (map fst ps) o kw1) as (o' & E' & W); [intros q Iq; now apply S, V|easy|].
    rewrite E'. now exists o'.
Qed.
Print Assumptions set_params_overwrites.

(* --- clone --------------------------------------------------------------------------- *)

Lemma given_kw k pk p v : acceptable (c_params k) [] pk ->
  In p (map fst pk) -> (given (c_params k) [] pk p v <-> In (p, v) pk).
Proof.
  intros A Ip. split.
  - intros (i & d & E & [K|[[_ K]|(_ & K & _)]]); [now destruct i|easy|easy].
  - intros J. destruct A as (_ & _ & K & _). destruct (K p Ip) as (i & E & _).
    destruct (nth_error (c_params k) i) as [[q d]|] eqn:Ei.
    + rewrite (map_nth_error fst _ _ Ei) in E. injection E as ->. exists i, d. split; [easy|].
      right; left. split; [now destruct i|easy].
    + apply nth_error_None in Ei. assert (X : nth_error (map fst (c_params k)) i = None)
        by (apply nth_error_None; now rewrite map_length). congruence.
Qed.

(** Cloning an object in use always works: the clone is the object one gets by
    calling the constructor with the current parameters; it has the same parameters,
    no other attribute (but the copy in neighborhood_params of the local homology
    classes), and cloning it again changes nothing. *)
Theorem clone_keeps_exactly_the_parameters k o : In k classes ->
  life (construct k) (set_params k) (map fst (c_params k)) o ->
  exists ps o', get_params k o = Ok ps /\ clone k o = Ok o' /\
    construct k [] ps = Ok o' /\ get_params k o' = Ok ps /\ clone k o' = Ok o' /\
    (forall a v, ~ In a (map fst (c_params k)) ->
       (has o' a v <->
        a = "neighborhood_params" /\
        (c_name k = "KNeighborsLocalVietorisRips" /\ has o "n_neighbors" v \/
         c_name k = "RadiusLocalVietorisRips" /\ has o "radii" v))).
Proof.
  intros I L. pose proof (life_complete k o I L) as CO.
  destruct (get_params_ok k o CO) as (ps & E & M & G).
  destruct (class_names k I) as [N _].
  assert (S : forall p, In p (map fst ps) <-> In p (map fst (c_params k)))
    by (intros p; rewrite M; split; apply Permutation_in; [apply sort_perm|apply Permutation_sym, sort_perm]).
  assert (NP : NoDup (map fst ps)) by (rewrite M; apply (Permutation_NoDup (Permutation_sym (sort_perm _)) N)).
  assert (A : acceptable (c_params k) [] ps).
  { split; [cbn; lia|]. split; [easy|]. split.
    - intros p Ip. apply S, In_nth_error in Ip as [i Ei]. exists i. split; [easy|cbn; lia].
    - intros i p Ei. right. apply S. apply nth_error_In in Ei. change p with (fst (p, @None val)). now apply in_map. }
  destruct (constructor_stores_its_arguments k I [] ps) as [B _]. destruct (B A) as (o' & C & P & Q).
  assert (H' : forall p, In p (map fst (c_params k)) -> lookup p o' = lookup p o).
  { intros p Ip. destruct (CO p Ip) as [v Hv]. rewrite Hv. apply P; [easy|].
    apply given_kw; [easy|now apply S|]. apply S in Ip. apply in_map_iff in Ip as ([q w] & <- & J). cbn in *.
    pose proof (G _ _ J) as X. unfold has in *. congruence. }
  assert (E' : get_params k o' = Ok ps).
  { rewrite <- E. unfold get_params.
    assert (X : forall p, In p (sort (map fst (c_params k))) -> lookup p o' = lookup p o)
      by (intros p Ip; apply H'; apply (Permutation_in _ (sort_perm _) Ip)).
    revert X. generalize (sort (map fst (c_params k))). clear. induction l as [|p l IH]; [easy|]. intros X. cbn.
    rewrite (X p) by now left. rewrite IH; [easy|]. intros q Iq. apply X. now right. }
  assert (F : forallb (fun pv => match lookup (fst pv) ps with
                        | Some v => if val_eq_dec v (snd pv) then true else false
                        | None => false
                        end) ps = true).
  { apply forallb_forall. intros [p v] J. cbn. rewrite (In_lookup p v ps NP J). now destruct (val_eq_dec v v). }
  exists ps, o'. split; [easy|]. split.
  { unfold clone. rewrite E. cbn. rewrite C. cbn. rewrite E'. cbn. now rewrite F. }
  split; [easy|]. split; [easy|]. split.
  { unfold clone. rewrite E'. cbn. rewrite C. cbn. rewrite E'. cbn. now rewrite F. }
  intros a v Na. rewrite (Q a v Na).
  assert (K : (c_name k = "KNeighborsLocalVietorisRips" -> In "n_neighbors" (map fst (c_params k))) /\
              (c_name k = "RadiusLocalVietorisRips" -> In "radii" (map fst (c_params k)))).
  { clear - I. unfold classes in I. cbn [In] in I.
    repeat (destruct I as [<-|I]; [split; first [intros _; apply mem_In; reflexivity|intros H; vm_compute in H; discriminate H]|]). easy. }
  destruct K as [K1 K2]. unfold has. split; intros [-> [[E1 X]|[E1 X]]]; (split; [easy|]); [left|right|left|right];
    (split; [easy|]); (rewrite <- X; auto using eq_sym).
Qed.
Print Assumptions clone_keeps_exactly_the_parameters.

(** Set_params does not reach the copy that the local homology classes made of their
    parameter: the object goes on with the old value, its clone has the new one. *)
Theorem local_homology_set_params_refuted k q : In (k, q) [(KNeighborsLocalVietorisRips, "n_neighbors");
    (RadiusLocalVietorisRips, "radii")] -> forall pos kw o v w,
  construct k pos kw = Ok o -> has o q v -> v <> w ->
  exists o' o'', set_params k o [(q, w)] = (o', Ok tt) /\ has o' q w /\
    clone k o' = Ok o'' /\ has o'' q w /\
    has o' "neighborhood_params" v /\ has o'' "neighborhood_params" w.
Proof.
  intros J pos kw o v w C H _.
  assert (I : In k classes /\ In q (map fst (c_params k)) /\
    (forall a, (k, q) = a -> c_name k = "KNeighborsLocalVietorisRips" /\ q = "n_neighbors" \/
       c_name k = "RadiusLocalVietorisRips" /\ q = "radii")).
  { destruct J as [[= <- <-]|[[= <- <-]|[]]]; (split; [|split; [apply mem_In; reflexivity|intros _ _; cbn; tauto]]);
      unfold classes; cbn [In]; repeat (first [left; reflexivity|right]). }
  destruct I as (I & Iq & D). specialize (D _ eq_refl).
  pose proof (born (construct k) (set_params k) (map fst (c_params k)) pos kw o C) as L.
  destruct (set_params_overwrites k o [(q, w)] I L) as [SP _]; [repeat constructor; easy|].
  destruct SP as (o' & E & W1 & W2); [intros p [<-|[]]; easy|].
  assert (L' : life (construct k) (set_params k) (map fst (c_params k)) o').
  { replace o' with (fst (set_params k o [(q, w)])) by now rewrite E. now constructor. }
  destruct (clone_keeps_exactly_the_parameters k o' I L') as (ps & o'' & G1 & CL & CC & G2 & _ & X).
  assert (Hq : has o' q w) by (apply W1; now left).
  assert (NN : ~ In "neighborhood_params" (map fst (c_params k))) by now apply class_names.
  exists o', o''. split; [easy|]. split; [easy|]. split; [easy|]. split.
  - destruct (get_params_returns_the_parameters k o' I L') as (p1 & P1 & _ & _ & Q1).
    pose proof (born (construct k) (set_params k) (map fst (c_params k)) _ _ _ CC) as L''.
    destruct (get_params_returns_the_parameters k o'' I L'') as (p2 & P2 & _ & _ & Q2).
    apply Q2. replace p2 with p1 by congruence. now apply Q1.
  - split.
    + unfold has. rewrite W2 by (cbn; intros [->|[]]; easy).
      destruct (constructor_stores_its_arguments k I pos kw) as [B _].
      destruct B as (o1 & C1 & _ & Q).
      { apply bind_args_iff. unfold construct in C. destruct (bind_args _ _ _) as [r|]; [eauto|discriminate]. }
      replace o1 with o in * by congruence. apply Q; [easy|]. split; [easy|].
      destruct D as [[D ->]|[D ->]]; [left|right]; auto.
    + apply X; [easy|]. split; [easy|]. destruct D as [[D ->]|[D ->]]; [left|right]; auto.
Qed.
Print Assumptions local_homology_set_params_refuted.

Example ex_life : exists o, life (construct Scaler) (set_params Scaler) (map fst (c_params Scaler)) o /\
  has o "scale_" (VInt 3) /\ has o "metric" (VStr "betti") /\
  clone Scaler o = Ok [("metric", VStr "betti"); ("metric_params", VNone); ("function", VFun "numpy.max"); ("n_jobs", VNone)].
Proof.
  exists (put "scale_" (VInt 3) (fst (set_params Scaler
    [("metric", VStr "heat"); ("metric_params", VNone); ("function", VFun "numpy.max"); ("n_jobs", VNone)]
    [("metric", VStr "betti"); ("bogus", VNone)]))).
  split; [|now repeat split]. apply written; [|cbn; intuition discriminate]. apply tuned.
  apply (born _ _ _ [VStr "heat"] []). reflexivity.
Qed.
