(** Parameter validation and point-cloud validation (C51, C61). *)
From Coq Require Import String.
From Verif Require Import Np NpFacts Fl FlFacts ValidModel ValidSpec.
Open Scope Z_scope.

(** Induction on values through the lists they contain. *)
Section ValueInd.
Variable P : value -> Prop.
Hypothesis H : forall v, (forall m, v = VDict m -> forall k x, In (k, x) m -> P x) -> P v.
Fixpoint value_dict_ind (v : value) : P v.
Proof.
  apply H. destruct v; intros m E; try discriminate.
  assert (G : forall k x, In (k, x) l -> P x).
  { clear m E. induction l as [|[k0 x0] l IH]; intros k x I; [destruct I|].
    destruct I as [I|I]; [|exact (IH k x I)]. exact (eq_ind x0 P (value_dict_ind x0) x (f_equal snd I)). }
  injection E as <-. exact G.
Defined.
End ValueInd.

Section V.
Variable inst : value -> Z -> bool.
Variable iter : value -> res (list value).
Variable key_value : string -> value.

Lemma isinstance_spec v t : isinstance inst v t = true <-> has_type inst v (Some t).
Proof.
  assert (G : forall c, isinstance1 inst v c = true <-> instance_of inst v c).
  { intros c. destruct c, v; cbn; split; try easy; try (intros [? ?]; discriminate); intros _; eexists; reflexivity. }
  destruct t as [c|l]; cbn; [apply G|]. rewrite existsb_exists. setoid_rewrite G. reflexivity.
Qed.
Lemma has_type_dec v t : (match t with None => true | Some t => isinstance inst v t end) = true <-> has_type inst v t.
Proof. destruct t; [apply isinstance_spec|]. cbn. easy. Qed.
Lemma container_spec v : is_container v = true <-> container v.
Proof.
  unfold container. destruct v; cbn; split; try easy; try (intros [x [C|[C|[C|[d C]]]]]; discriminate); intros _; try (exists l; auto; fail).
  exists []. right. right. right. eauto.
Qed.
Lemma ref_container v t : ref_is_container t = true -> has_type inst v t -> container v.
Proof.
  destruct t as [[c|l]|]; try discriminate. destruct c; try discriminate; intros _ [l E]; subst; apply container_spec; reflexivity.
Qed.
Lemma single_spec v r :
  match validate_single inst v r with
  | Err e => fails inst v r e
  | Ok ret =>
      passes inst v r /\
      match r with
      | NoRef => ret = RFalse
      | Ref t _ r_other _ =>
         (ret = RDict <-> as_dict t) /\ (ret = RTrue <-> as_items v t r_other)
      end
  end.
Proof.
  destruct r as [|t r_in r_other r_of]; [cbn; auto|]. unfold validate_single.
  destruct (match t with None => true | Some t => isinstance inst v t end) eqn:T; cbn [negb].
  2: { apply fails_type. rewrite <- has_type_dec, T. discriminate. }
  apply has_type_dec in T. destruct (ref_is_container t || is_container v) eqn:C; cbn [negb].
  - assert (K : container v).
    { apply orb_true_iff in C as [C|C]; [eapply ref_container; eassumption|now apply container_spec]. }
    split; [split; [assumption|]; intros N; contradiction|]. unfold as_dict, as_items, as_dict.
    destruct t as [[[| | | | |]|]|]; (split; [split; [try discriminate; try reflexivity|intros E; try discriminate E; try reflexivity]|]);
      (split; [intros E; try discriminate E; left; repeat split; try assumption; try discriminate|]); intros [[_ [N1 N2]]|[N _]]; try contradiction; try reflexivity;
      exfalso; now apply N2.
  - apply orb_false_iff in C as [C1 C2].
    assert (K : ~ container v) by (rewrite <- container_spec, C2; discriminate).
    assert (D : ~ as_dict t). { intros E. rewrite E in C1. discriminate. }
    assert (I : (exists e, match v, r_in with VNone, _ | _, None => Ok tt | _, Some f => do b <- f v; if b : bool then Ok tt else Err ValueError end = Err e /\ fails inst v (Ref t r_in r_other r_of) e) \/
                (match v, r_in with VNone, _ | _, None => Ok tt | _, Some f => do b <- f v; if b : bool then Ok tt else Err ValueError end = Ok tt /\
                 (v = VNone \/ forall f, r_in = Some f -> f v = Ok true))).
    { destruct r_in as [f|].
      - destruct v; try discriminate C2; [right; auto|].
        destruct (f (VScalar s)) as [[|]|e] eqn:E; cbn [bind].
        + right. split; [reflexivity|]. right. intros f' Ef. now injection Ef as <-.
        + left. exists ValueError. split; [reflexivity|]. apply fails_in; auto. discriminate.
        + left. exists e. split; [reflexivity|]. apply fails_in_raise; auto. discriminate.
      - right. split; [destruct v; reflexivity|]. right. discriminate. }
    destruct I as [[e [-> F]]|[-> Pin]]; cbn [bind]; [exact F|].
    destruct r_other as [g|].
    + destruct (g v) as [b|e] eqn:G; cbn [bind].
      * split; [split; [assumption|]; intros _; split; [assumption|]; intros g' Eg; injection Eg as <-; eauto|].
        split; [destruct b; split; easy|]. unfold as_items. destruct b; split; try easy.
        -- intros _. right. eauto.
        -- intros [[K' _]|[_ [g' [Eg E]]]]; [contradiction|]. injection Eg as <-. congruence.
      * eapply fails_other; eauto.
    + split; [split; [assumption|]; intros _; split; [assumption|discriminate]|]. split; [split; easy|]. split; [discriminate|].
      intros [[K' _]|[_ [g' [Eg E]]]]; [contradiction|discriminate].
Qed.
Lemma elements_spec v l : elements iter key_value v = Ok l <-> items_of iter key_value v l.
Proof. destruct v; cbn; try reflexivity; (split; [intros E; congruence|intros ->; reflexivity]). Qed.
Lemma validate_elements_spec l r :
  match validate_elements inst l r with
  | Ok _ => forall x, In x l -> passes inst x r
  | Err e => exists pre x post, l = pre ++ x :: post /\ (forall y, In y pre -> passes inst y r) /\ fails inst x r e
  end.
Proof.
  induction l as [|x l IH]; cbn [validate_elements]; [intros ? []|].
  pose proof (single_spec x r) as S. destruct (validate_single inst x r) as [ret|e]; cbn [bind].
  - destruct S as [S _]. destruct (validate_elements inst l r) as [|e].
    + intros y [<-|I]; auto.
    + destruct IH as [pre [y [post [-> [H1 H2]]]]]. exists (x :: pre), y, post. split; [reflexivity|]. split; [|assumption]. intros z [<-|I]; auto.
  - exists [], x, l. split; [reflexivity|]. split; [intros ? []|assumption].
Qed.
Lemma validate_entry_dict t r_in r_other refs m : t = Some (One CDict) ->
  validate_entry inst iter key_value (VDict m) (Ref t r_in r_other (OfDict refs)) = validate_loop inst iter key_value m refs.
Proof.
  intros ->. cbn -[lookup]. induction m as [|[k x] m IH]; [reflexivity|]. cbn [validate_loop]. destruct (lookup k refs); [|reflexivity]. now rewrite IH.
Qed.
Lemma validate_entry_other v t r_in r_other r_of : ~ as_dict t ->
  validate_entry inst iter key_value v (Ref t r_in r_other r_of) =
  do ret <- validate_single inst v (Ref t r_in r_other r_of);
  match ret, r_of with
  | RFalse, _ | _, OfNone => Ok tt
  | RTrue, OfElem e => do l <- elements iter key_value v; validate_elements inst l e
  | _, _ => Err RuntimeError
  end.
Proof.
  intros N. pose proof (single_spec v (Ref t r_in r_other r_of)) as S. destruct v; cbn [validate_entry];
    destruct (validate_single inst _ _) as [[| |]|]; cbn [bind]; destruct r_of; try reflexivity; destruct S as [_ [S _]]; exfalso; now apply N, S.
Qed.
Definition entry_post (v : value) (r : ref) : Prop := documented r ->
  match validate_entry inst iter key_value v r with
  | Ok _ => accepted inst iter key_value v r
  | Err e => rejected inst iter key_value v r e
  end.
Lemma loop_spec m refs : (forall k r, lookup k refs = Some r -> documented r) ->
  (forall k x, In (k, x) m -> forall r, entry_post x r) ->
  match validate_loop inst iter key_value m refs with
  | Ok _ => forall k x, In (k, x) m -> exists r, lookup k refs = Some r /\ accepted inst iter key_value x r
  | Err e => exists pre k x post, m = pre ++ (k, x) :: post /\
      (forall k' x', In (k', x') pre -> exists r, lookup k' refs = Some r /\ accepted inst iter key_value x' r) /\
      ((lookup k refs = None /\ e = KeyError) \/ exists r, lookup k refs = Some r /\ rejected inst iter key_value x r e)
  end.
Proof.
  intros D. induction m as [|[k x] m IH]; intros E; cbn [validate_loop]; [intros ? ? []|].
  destruct (lookup k refs) as [r|] eqn:L.
  - pose proof (E k x (or_introl eq_refl) r (D _ _ L)) as R. destruct (validate_entry inst iter key_value x r) as [u|e]; cbn [bind].
    + specialize (IH (fun k' x' I => E k' x' (or_intror I))). destruct (validate_loop _ _ _ m refs) as [|e].
      * intros k' x' [I|I]; [|auto]. assert (k' = k) as -> by congruence. assert (x' = x) as -> by congruence. eauto.
      * destruct IH as [pre [k' [x' [post [-> [H1 H2]]]]]]. exists ((k, x) :: pre), k', x', post. split; [reflexivity|]. split; [|assumption].
        intros k'' x'' [I|I]; [|auto]. assert (k'' = k) as -> by congruence. assert (x'' = x) as -> by congruence. eauto.
    + exists [], k, x, m. split; [reflexivity|]. split; [intros ? ? []|]. right. eauto.
  - exists [], k, x, m. split; [reflexivity|]. split; [intros ? ? []|]. left. auto.
Qed.
Lemma entry_spec v : forall r, entry_post v r.
Proof.
  induction v as [v IH] using value_dict_ind. intros r D.
  assert (Dec : forall r, r = NoRef \/ (exists t a b c, r = Ref t a b c /\ as_dict t) \/ (exists t a b c, r = Ref t a b c /\ ~ as_dict t)).
  { intros [|[[c|l]|] a b o]; [auto|..]; right; unfold as_dict; [destruct c|..];
      try (right; do 4 eexists; split; [reflexivity|discriminate]). left. do 4 eexists. split; reflexivity. }
  destruct (Dec r) as [->|[[t [a [b [c [-> T]]]]]|[t [a [b [c [-> T]]]]]]].
  - destruct v; cbn; apply acc_none.
  - (* type dict *)
    inversion D; subst.
    + pose proof (single_spec v (Ref t a b OfNone)) as S.
      assert (E : validate_entry inst iter key_value v (Ref t a b OfNone) = do _ <- validate_single inst v (Ref t a b OfNone); Ok tt).
      { destruct v; cbn [validate_entry]; destruct (validate_single inst _ _) as [[| |]|]; reflexivity. }
      rewrite E. destruct (validate_single _ _ _); cbn [bind]; [|now apply rej_first]. apply acc_flat; [apply S|auto].
    + destruct (is_container v) eqn:C; [destruct v; try discriminate C|].
      4: { rewrite validate_entry_dict by reflexivity.
        pose proof (loop_spec l refs ltac:(assumption) (fun k x I => IH l eq_refl k x I)) as L.
        destruct (validate_loop _ _ _ l refs) as [|e]; [apply acc_dict; [reflexivity|assumption]|].
        destruct L as [pre [k [x [post [E [H1 [[L ->]|[r [L R]]]]]]]]].
        - eapply rej_dict_name; eauto.
        - eapply rej_dict_value; eauto. }
      all: try (cbn; apply rej_first, fails_type; intros [m E]; discriminate E).
      destruct v; try discriminate C; cbn; apply rej_first, fails_type; intros [m E]; discriminate E.
    + contradiction.
  - rewrite validate_entry_other by assumption. pose proof (single_spec v (Ref t a b c)) as S.
    destruct (validate_single inst v (Ref t a b c)) as [ret|e]; cbn [bind]; [|now apply rej_first].
    destruct S as [S1 [S2 S3]]. destruct ret.
    + apply acc_flat; [assumption|]. right. split; [assumption|]. rewrite <- S3. discriminate.
    + exfalso. apply T, S2. reflexivity.
    + inversion D; subst; [apply acc_flat; auto|exfalso; now apply T|].
      assert (A : as_items v t b) by now apply S3.
      destruct (elements iter key_value v) as [l|e'] eqn:El; cbn [bind].
      * apply elements_spec in El. pose proof (validate_elements_spec l e) as Q. destruct (validate_elements inst l e) as [|e'].
        -- eapply acc_items; eauto.
        -- destruct Q as [pre [x [post [-> [Q1 Q2]]]]]. eapply rej_items; eauto.
      * apply rej_iter; auto.
        -- intros C. apply container_spec in C. destruct v; try discriminate C; discriminate El.
        -- destruct v; try discriminate El; exact El.
Qed.

Lemma passes_fails v r e : passes inst v r -> fails inst v r e -> False.
Proof.
  intros P F. inversion F; subst; cbn in P; destruct P as [P1 P2]; [contradiction|..]; destruct (P2 ltac:(assumption)) as [P3 P4].
  - destruct P3 as [P3|P3]; [contradiction|]. specialize (P3 _ eq_refl). congruence.
  - destruct P3 as [P3|P3]; [contradiction|]. specialize (P3 _ eq_refl). congruence.
  - destruct (P4 _ eq_refl). congruence.
Qed.
Lemma items_unique v l l' : items_of iter key_value v l -> items_of iter key_value v l' -> l = l'.
Proof. destruct v; cbn; congruence. Qed.
(** The two outcomes exclude each other. *)
Lemma accepted_rejected v : forall r e, accepted inst iter key_value v r -> rejected inst iter key_value v r e -> False.
Proof.
  induction v as [v IH] using value_dict_ind. intros r e A R. inversion A; subst.
  - inversion R; subst. inversion H.
  - assert (K : r_of = OfNone \/ ~ as_dict t /\ ~ as_items v t r_other) by assumption.
    inversion R; subst; try (destruct K as [K|[K1 K2]]; [discriminate|contradiction]). eapply passes_fails; eassumption.
  - assert (K : forall k x, In (k, x) m -> exists r, lookup k refs = Some r /\ accepted inst iter key_value x r) by assumption.
    assert (T : as_dict t) by assumption. clear A.
    inversion R as [? ? ? F|? ? ? ? ? pre k x post _ Em _ L|? ? ? ? ? pre k x post r' e' _ Em _ L Rj| |]; subst.
    + inversion F; subst; [|exfalso; match goal with N : ~ container _ |- _ => apply N, container_spec; reflexivity end ..].
      match goal with N : ~ has_type _ _ _ |- _ => apply N end. rewrite T. exists m. reflexivity.
    + destruct (K k x) as [r [L' _]]; [apply in_elt|congruence].
    + destruct (K k x) as [r [L' Ac]]; [apply in_elt|]. assert (r' = r) as -> by congruence.
      eapply (IH _ eq_refl k x); [apply in_elt|eassumption|eassumption].
  - inversion R; subst; try (eapply passes_fails; eassumption); try match goal with H : OfElem _ = OfDict _ |- _ => discriminate H end.
    + assert (El : l = pre ++ x :: post) by (eapply items_unique; eassumption). subst l.
      eapply passes_fails; [|eassumption]. match goal with H : forall y, In y (pre ++ x :: post) -> _ |- _ => apply H end. apply in_elt.
    + assert (N : ~ container v) by assumption. assert (I : items_of iter key_value v l) by assumption.
      destruct v; try (exfalso; apply N, container_spec; reflexivity); cbn in I; congruence.
Qed.

Lemma fails_unique v r e e' : fails inst v r e -> fails inst v r e' -> e = e'.
Proof.
  intros F G. inversion F; subst; inversion G; subst; try reflexivity; try contradiction; try congruence.
  all: match goal with H : _ \/ (forall f, _ -> _) |- _ => destruct H as [H|H]; [contradiction|]; specialize (H _ eq_refl); congruence end.
Qed.
Lemma split_unique {A} (Good Bad : A -> Prop) : (forall x, Good x -> Bad x -> False) ->
  forall pre pre' x x' post post', pre ++ x :: post = pre' ++ x' :: post' ->
  (forall y, In y pre -> Good y) -> (forall y, In y pre' -> Good y) -> Bad x -> Bad x' -> x = x'.
Proof.
  intros N. induction pre as [|a pre IH]; intros [|a' pre'] x x' post post' E G G' B B'; cbn in E.
  - congruence.
  - exfalso. assert (a' = x) as -> by congruence. apply (N x); [apply G'; now left|assumption].
  - exfalso. assert (a = x') as -> by congruence. apply (N x'); [apply G; now left|assumption].
  - injection E as <- E. eapply IH; eauto; intros y I; [apply G|apply G']; now right.
Qed.
Lemma rejected_unique v : forall r e e', rejected inst iter key_value v r e -> rejected inst iter key_value v r e' -> e = e'.
Proof.
  induction v as [v IH] using value_dict_ind.
  assert (T0 : forall m t r_in r_other r_of e, as_dict t -> fails inst (VDict m) (Ref t r_in r_other r_of) e -> False).
  { intros m t r_in r_other r_of e T F. inversion F; subst; [|match goal with N : ~ container _ |- _ => apply N, container_spec; reflexivity end ..].
    match goal with N : ~ has_type _ _ _ |- _ => apply N end. rewrite T. exists m. reflexivity. }
  assert (W : forall r e e', rejected inst iter key_value v r e -> rejected inst iter key_value v r e' ->
     e = e' \/ exists m t r_in r_other refs, v = VDict m /\ r = Ref t r_in r_other (OfDict refs)).
  { intros r e e' R R'. inversion R; subst.
    - inversion R'; subst; eauto 10.
      + left. eapply fails_unique; eassumption.
      + exfalso. eapply passes_fails; eassumption.
      + exfalso. eapply passes_fails; eassumption.
    - eauto 10.
    - eauto 10.
    - left. inversion R'; subst; try match goal with H : OfElem _ = OfDict _ |- _ => discriminate H end.
      + exfalso. eapply passes_fails; eassumption.
      + assert (E : pre ++ x :: post = pre0 ++ x0 :: post0) by (eapply items_unique; eassumption).
        assert (x = x0) as <-.
        { eapply (split_unique (fun y => passes inst y el) (fun y => exists e, fails inst y el e)); eauto.
          intros y P [e'' F]. eapply passes_fails; eassumption. }
        eapply fails_unique; eassumption.
      + exfalso. match goal with N : ~ container v, I : items_of _ _ v _ |- _ => destruct v; try (apply N, container_spec; reflexivity); cbn in I; congruence end.
    - left. inversion R'; subst; try match goal with H : OfElem _ = OfDict _ |- _ => discriminate H end.
      + exfalso. eapply passes_fails; eassumption.
      + exfalso. match goal with N : ~ container v, I : items_of _ _ v _ |- _ => destruct v; try (apply N, container_spec; reflexivity); cbn in I; congruence end.
      + congruence. }
  intros r e e' R R'. destruct (W r e e' R R') as [|[m [t [r_in [r_other [refs [-> ->]]]]]]]; [assumption|]. clear W.
  assert (G : forall e, rejected inst iter key_value (VDict m) (Ref t r_in r_other (OfDict refs)) e ->
    (fails inst (VDict m) (Ref t r_in r_other (OfDict refs)) e) \/
    (as_dict t /\ exists pre k x post, m = pre ++ (k, x) :: post /\ (forall k' x', In (k', x') pre -> exists r, lookup k' refs = Some r /\ accepted inst iter key_value x' r) /\
       ((lookup k refs = None /\ e = KeyError) \/ exists r, lookup k refs = Some r /\ rejected inst iter key_value x r e))).
  { clear. intros e R. inversion R; subst; [now left|right; split; [assumption|]; eauto 10 ..]. }
  destruct (G e R) as [F|[T [pre [k [x [post [E [H B]]]]]]]], (G e' R') as [F'|[T' [pre' [k' [x' [post' [E' [H' B']]]]]]]].
  - eapply fails_unique; eassumption.
  - exfalso. eapply T0; eassumption.
  - exfalso. eapply T0; eassumption.
  - assert (P : (k, x) = (k', x')).
    { eapply (split_unique (fun p => exists r, lookup (fst p) refs = Some r /\ accepted inst iter key_value (snd p) r)
         (fun p => exists e, (lookup (fst p) refs = None /\ e = KeyError) \/ exists r, lookup (fst p) refs = Some r /\ rejected inst iter key_value (snd p) r e)).
      - intros [a b] [r [L A]] [e'' [[L' _]|[r' [L' Rj]]]]; cbn in *; [congruence|]. assert (r' = r) as -> by congruence. eapply accepted_rejected; eassumption.
      - rewrite <- E. exact E'.
      - intros [a b] I. now apply H.
      - intros [a b] I. now apply H'.
      - eauto.
      - eauto. }
    injection P as <- <-. destruct B as [[L ->]|[r [L Rj]]], B' as [[L' ->]|[r' [L' Rj']]]; try congruence.
    assert (r' = r) as -> by congruence. eapply (IH m eq_refl k x); [rewrite E; apply in_elt|eassumption|eassumption].
Qed.

(** ** validate_params (C51) *)
(** It returns exactly when every parameter which is not excluded has a reference and is
    accepted by it; otherwise the exception is the one of the first parameter
    which is not. *)
Theorem validate_params_spec : forall params refs exclude,
  (forall k r, lookup k refs = Some r -> documented r) ->
  (validate_params inst iter key_value params refs exclude = Ok tt <->
   forall k v, In (k, v) params -> (forall l, exclude = Some l -> ~ In k l) ->
     exists r, lookup k refs = Some r /\ accepted inst iter key_value v r).
Proof.
  intros params refs exclude D. unfold validate_params. set (ex := match exclude with None => [] | Some l => l end).
  assert (X : forall k, existsb (String.eqb k) ex = false <-> forall l, exclude = Some l -> ~ In k l).
  { intros k. unfold ex. split.
    - intros E l -> I. assert (existsb (String.eqb k) l = true); [|congruence]. apply existsb_exists. exists k. split; [assumption|apply String.eqb_refl].
    - intros N. destruct exclude as [l|]; [|reflexivity]. destruct (existsb (String.eqb k) l) eqn:E; [|reflexivity]. exfalso.
      apply existsb_exists in E as [k' [I E]]. apply String.eqb_eq in E as ->. now apply (N l). }
  set (ps := filter _ params).
  assert (I : forall k v, In (k, v) ps <-> In (k, v) params /\ forall l, exclude = Some l -> ~ In k l).
  { intros k v. unfold ps. rewrite filter_In. cbn [fst]. rewrite negb_true_iff, X. reflexivity. }
  pose proof (loop_spec ps refs D (fun k x _ => entry_spec x)) as L. split.
  - intros E. rewrite E in L. intros k v I1 I2. apply (L k v). now apply I.
  - intros A. destruct (validate_loop _ _ _ ps refs) as [[]|e] eqn:E; [reflexivity|]. exfalso.
    destruct L as [pre [k [x [post [Ep [_ B]]]]]].
    assert (Ik : In (k, x) ps) by (rewrite Ep; apply in_elt). apply I in Ik as [I1 I2]. destruct (A k x I1 I2) as [r [Lk Ac]].
    destruct B as [[B _]|[r' [Lk' Rj]]]; [congruence|]. assert (r' = r) as -> by congruence.
    eapply accepted_rejected; eassumption.
Qed.
Theorem validate_params_error : forall params refs e,
  (forall k r, lookup k refs = Some r -> documented r) ->
  (validate_params inst iter key_value params refs None = Err e <->
   exists pre k v post, params = pre ++ (k, v) :: post /\
     (forall k' v', In (k', v') pre -> exists r, lookup k' refs = Some r /\ accepted inst iter key_value v' r) /\
     ((lookup k refs = None /\ e = KeyError) \/ exists r, lookup k refs = Some r /\ rejected inst iter key_value v r e)).
Proof.
  intros params refs e D. unfold validate_params.
  assert (F : forall l : list (string * value), filter (fun p => negb (existsb (String.eqb (fst p)) [])) l = l).
  { induction l as [|a l IH]; [reflexivity|]. cbn in *. now rewrite IH. }
  rewrite F. pose proof (loop_spec params refs D (fun k x _ => entry_spec x)) as L. split.
  - intros E. now rewrite E in L.
  - clear L. intros [pre [k [v [post [-> [H B]]]]]]. induction pre as [|[k' v'] pre IH]; cbn [app validate_loop].
    + destruct B as [[-> ->]|[r [Lk R]]]; [reflexivity|]. rewrite Lk. pose proof (entry_spec v r (D _ _ Lk)) as S.
      destruct (validate_entry _ _ _ v r) as [u|e'].
      * exfalso. eapply accepted_rejected; eassumption.
      * cbn [bind]. f_equal. eapply rejected_unique; eassumption.
    + destruct (H k' v' (or_introl eq_refl)) as [r [Lk A]]. rewrite Lk. pose proof (entry_spec v' r (D _ _ Lk)) as S.
      destruct (validate_entry _ _ _ v' r) as [u|e']; [|exfalso; eapply accepted_rejected; eassumption]. cbn [bind]. apply IH.
      intros k'' v'' I. apply H. now right.
Qed.
End V.
Print Assumptions validate_params_spec.
Print Assumptions validate_params_error.

(** The reference of Labeller's [percentiles] (time_series/target.py), with integers as the numbers:
    class 1 is Real. *)
Definition real_inst (v : value) (c : Z) : bool := match v with VScalar _ => c =? 1 | _ => false end.
Definition no_iter (v : value) : res (list value) := Err TypeError.
Definition percent_ref : ref :=
  Ref (Some (Many [CList; CNoneType])) None None
      (OfElem (Ref (Some (One (CClass 1))) (Some (fun v => match v with VScalar z => Ok ((0 <=? z) && (z <=? 100)) | _ => Err TypeError end)) None OfNone)).
Example validate_params_ex :
  let refs := [("percentiles"%string, percent_ref)] in
  let run p := validate_params real_inst no_iter (fun _ => VNone) p refs None in
  (forall k r, lookup k refs = Some r -> documented r) /\
  run [("percentiles"%string, VList [VScalar 5; VScalar 50])] = Ok tt /\
  run [("percentiles"%string, VNone)] = Ok tt /\
  run [("percentiles"%string, VList [VScalar 5; VScalar 200])] = Err ValueError /\
  run [("percentiles"%string, VScalar 5)] = Err TypeError /\
  run [("percentile"%string, VNone)] = Err KeyError.
Proof.
  cbv zeta. split; [|repeat split; reflexivity]. intros k r. cbn [lookup]. destruct (String.eqb _ _); [|discriminate].
  intros E. injection E as <-. apply doc_elem. discriminate.
Qed.
(** The reference of an item is not followed in depth: an item which by itself violates its reference
    is accepted inside a list. *)
Theorem validate_nested_refuted : exists inst iter key_value v e,
  documented e /\ validate_entry inst iter key_value v e = Err TypeError /\
  validate_params inst iter key_value [("a"%string, VList [v])] [("a"%string, Ref (Some (One CList)) None None (OfElem e))] None = Ok tt.
Proof.
  exists real_inst, no_iter, (fun _ => VNone), (VList [VNone]), (Ref (Some (One CList)) None None (OfElem (Ref (Some (One (CClass 1))) None None OfNone))).
  split; [apply doc_elem; discriminate|]. split; reflexivity.
Qed.
(** When a dictionary is one of several allowed types, its keys are checked against 'of' as if they were items. *)
Theorem validate_dict_keys_refuted : exists inst iter key_value m t refs,
  has_type inst (VDict m) (Some (Many [CDict; CNoneType])) /\
  (forall k x, In (k, x) m -> accepted inst iter key_value x (Ref t None None OfNone)) /\
  lookup "a"%string refs = Some (Ref (Some (Many [CDict; CNoneType])) None None (OfElem (Ref t None None OfNone))) /\
  validate_params inst iter key_value [("a"%string, VDict m)] refs None = Err TypeError.
Proof.
  exists real_inst, no_iter, (fun _ => VNone), [("x"%string, VScalar 1)], (Some (One (CClass 1))).
  eexists [("a"%string, _)]. split; [|split; [|split; [reflexivity|reflexivity]]].
  - exists CDict. split; [now left|]. eexists. reflexivity.
  - intros k x [E|[]]. injection E as _ <-. apply acc_flat; [|now left]. split; [reflexivity|]. intros _. split; [right; discriminate|discriminate].
Qed.

(** ** check_point_clouds (C61) *)
Lemma existsb_nan l : existsb isnan l = false <-> forall y, In y l -> y <> NaN.
Proof.
  split.
  - intros E y I ->. assert (existsb isnan l = true); [|congruence]. apply existsb_exists. exists NaN. auto.
  - intros H. destruct (existsb isnan l) eqn:E; [|reflexivity]. apply existsb_exists in E as [y [I E]]. destruct y; try discriminate. now apply H in I.
Qed.
Definition finite_arg (dm : bool) (f : option finite_opt) : finite_opt :=
  match f with Some f => f | None => if dm then FFalse else FTrue end.
(** The finiteness checks of check_array and _check_array_mod together. *)
Lemma finite_checks dm f l :
  (all_finite_ok (finite_arg dm f) l && match finite_arg dm f with FFalse => negb (existsb isnan l) | _ => true end = true) <->
  forall y, In y l -> allowed dm f y.
Proof.
  assert (A : forallb isfin l = true <-> forall y, In y l -> exists q, y = Fin q).
  { rewrite forallb_forall. split; intros H y I; specialize (H y I); [destruct y; try discriminate; eauto|]. destruct H as [q ->]. reflexivity. }
  assert (B : forallb (fun x => isfin x || isnan x) l = true <-> forall y, In y l -> y <> PInf /\ y <> NInf).
  { rewrite forallb_forall. split; intros H y I; specialize (H y I); destruct y; try discriminate; try (split; discriminate); destruct H; try contradiction; reflexivity. }
  assert (C : negb (existsb isnan l) = true <-> forall y, In y l -> y <> NaN).
  { rewrite negb_true_iff. apply existsb_nan. }
  destruct f as [[| |]|]; cbn [finite_arg all_finite_ok allowed]; [..|destruct dm]; cbn [all_finite_ok]; rewrite ?andb_true_r; cbn [andb]; try assumption.
Qed.
Lemma check_array_mod_dense e2 nd sp dm f x : a_kind x = Dense ->
  check_array_mod e2 nd sp (finite_arg dm f) x =
  if e2 && (zlen (a_shape x) <? 2) then Err ValueError
  else if negb nd && (3 <=? zlen (a_shape x)) then Err ValueError
  else if negb (all_finite_ok (finite_arg dm f) (a_data x)) then Err ValueError
  else if zlen (a_shape x) =? 0 then Err TypeError
  else if negb (min_size_ok (a_shape x)) then Err ValueError
  else if match finite_arg dm f with FFalse => existsb isnan (a_data x) | _ => false end then Err ValueError
  else Ok x.
Proof.
  intros K. destruct x as [k s d]. cbn in K. subst k. unfold check_array_mod, check_array. cbn [a_kind a_shape a_data].
  destruct (e2 && (zlen s <? 2)), (negb nd && (3 <=? zlen s)), (negb (all_finite_ok (finite_arg dm f) d)), (zlen s =? 0), (negb (min_size_ok s)); destruct (finite_arg dm f); reflexivity.
Qed.
(** A single array. *)
Theorem check_point_clouds_array : forall x dm sp f, a_kind x = Dense ->
  (exists a n m w, a_shape x = [a; n; m] /\ 1 <= a /\ (dm = true -> n = m) /\ (forall y, In y (a_data x) -> allowed dm f y) /\
     check_point_clouds (CArr x) dm sp f = Ok (OutArr x, w) /\ (w = true <-> n = m /\ dm = false)) \/
  (~ (exists a n m, a_shape x = [a; n; m] /\ 1 <= a /\ (dm = true -> n = m) /\ (forall y, In y (a_data x) -> allowed dm f y)) /\
   check_point_clouds (CArr x) dm sp f = Err ValueError).
Proof.
  intros x dm sp f K. unfold check_point_clouds. fold (finite_arg dm f).
  assert (S : (exists a n m, a_shape x = [a; n; m]) \/ ((forall a n m, a_shape x <> [a; n; m]) /\
    match a_shape x with [_; n; m] => False | _ => True end)).
  { destruct (a_shape x) as [|a [|n [|m [|]]]]; try (right; split; [intros; discriminate|exact I]). left. eauto. }
  destruct S as [[a [n [m S]]]|[S S']].
  2: { right. split; [intros [a [n [m [E _]]]]; now apply (S a n m)|]. destruct (a_shape x) as [|a [|n [|m [|]]]]; try reflexivity. destruct S'. }
  rewrite S. pose proof (finite_checks dm f (a_data x)) as FC.
  destruct (negb (n =? m) && dm) eqn:Q.
  { right. split; [|reflexivity]. intros [a' [n' [m' [E [_ [D _]]]]]]. injection E as <- <- <-.
    apply andb_true_iff in Q as [Q ->]. apply negb_true_iff, Z.eqb_neq in Q. now apply Q, D. }
  rewrite check_array_mod_dense by assumption. rewrite S. cbn [zlen length]. change (Z.of_nat 3) with 3. cbn [Z.ltb Z.leb Z.compare andb negb Z.eqb Pos.compare Pos.compare_cont min_size_ok].
  assert (Dm : dm = true -> n = m). { intros ->. destruct (Z.eqb_spec n m); [assumption|discriminate]. }
  destruct (all_finite_ok (finite_arg dm f) (a_data x)) eqn:A; cbn [negb].
  2: { right. split; [|reflexivity]. intros [a' [n' [m' [_ [_ [_ H]]]]]]. apply FC in H. discriminate. }
  destruct (1 <=? a) eqn:La; cbn [negb].
  2: { right. split; [|reflexivity]. intros [a' [n' [m' [E [H _]]]]]. injection E as <- <- <-. apply Z.leb_gt in La. lia. }
  destruct (match finite_arg dm f with FFalse => existsb isnan (a_data x) | _ => false end) eqn:B.
  { right. split; [|reflexivity]. intros [a' [n' [m' [_ [_ [_ H]]]]]]. apply FC in H. destruct (finite_arg dm f); try discriminate. rewrite B in H. discriminate. }
  left. exists a, n, m, ((n =? m) && negb dm). cbn [bind]. split; [reflexivity|]. apply Z.leb_le in La. split; [assumption|]. split; [assumption|]. split.
  - apply FC. cbn [andb]. destruct (finite_arg dm f); try reflexivity. now rewrite B.
  - split; [reflexivity|]. rewrite andb_true_iff, Z.eqb_eq, negb_true_iff. reflexivity.
Qed.

Lemma shape_eqb_spec s t : shape_eqb s t = true <-> s = t.
Proof.
  unfold shape_eqb. rewrite andb_true_iff, Z.eqb_eq. split.
  - intros [L F]. revert t L F. induction s as [|a s IH]; intros [|b t] L F; try reflexivity; try (unfold zlen in L; cbn [length] in L; lia).
    cbn in F. apply andb_true_iff in F as [F1 F2]. apply Z.eqb_eq in F1 as ->. f_equal. apply IH; [rewrite !zlen_cons in L; lia|assumption].
  - intros <-. split; [reflexivity|]. induction s as [|a s IH]; [reflexivity|]. cbn. now rewrite Z.eqb_refl, IH.
Qed.
(** What is done with one entry of a list. *)
Lemma check_entry_spec x dm sp f : a_kind x <> Nested -> (a_kind x = Sparse -> sp = true /\ exists n m, a_shape x = [n; m]) ->
  (good_entry dm f x /\ check_entry dm sp (finite_arg dm f) x = Ok x) \/
  (~ good_entry dm f x /\ check_entry dm sp (finite_arg dm f) x = Err ValueError).
Proof.
  intros K Ks. pose proof (finite_checks dm f (a_data x)) as FC. unfold check_entry, good_entry.
  destruct (a_kind x) eqn:Kx; [| |contradiction].
  - rewrite check_array_mod_dense by assumption. cbn [negb andb].
    destruct (a_shape x) as [|n [|m [|p s]]] eqn:S.
    1: right; split; [intros [[n' [m' [E _]]] _]; discriminate|]; reflexivity.
    1: right; split; [intros [[n' [m' [E _]]] _]; discriminate|]; reflexivity.
    2: { right. split; [intros [[n' [m' [E _]]] _]; discriminate|]. rewrite !zlen_cons. pose proof (zlen_nonneg s).
         rewrite (proj2 (Z.ltb_ge _ 2)), (proj2 (Z.leb_le 3 _)) by lia. reflexivity. }
    change (zlen [n; m] <? 2) with false. change (3 <=? zlen [n; m]) with false. change (zlen [n; m] =? 0) with false. cbn [min_size_ok].
    destruct (all_finite_ok (finite_arg dm f) (a_data x)) eqn:A; cbn [negb].
    2: { right. split; [|reflexivity]. intros [_ H]. apply FC in H. discriminate. }
    destruct ((1 <=? n) && (1 <=? m)) eqn:La; cbn [negb].
    2: { right. split; [|reflexivity]. intros [[n' [m' [E [H1 [H2 _]]]]] _]. injection E as <- <-. apply Z.leb_le in H1, H2. rewrite H1, H2 in La. discriminate. }
    destruct (match finite_arg dm f with FFalse => existsb isnan (a_data x) | _ => false end) eqn:B.
    { right. split; [|reflexivity]. intros [_ H]. apply FC in H. destruct (finite_arg dm f); try discriminate. rewrite B in H. discriminate. }
    cbn [bind]. rewrite Kx. cbn [negb andb]. rewrite andb_true_r.
    assert (AL : forall y, In y (a_data x) -> allowed dm f y). { apply FC. cbn [andb]. destruct (finite_arg dm f); try reflexivity. now rewrite B. }
    apply andb_true_iff in La as [L1 L2]. apply Z.leb_le in L1, L2.
    destruct dm.
    + unfold square, get_shape. rewrite Kx, S. cbn [bind py_get Znth]. change (py_get [n; m] 0) with (Ok n). change (py_get [n; m] 1) with (Ok m). cbn [bind].
      destruct (Z.eqb_spec n m) as [E|E].
      * left. split; [|reflexivity]. split; [|assumption]. exists n, m. auto.
      * right. split; [|reflexivity]. intros [[n' [m' [E' [_ [_ H]]]]] _]. injection E' as <- <-. now apply E, H.
    + left. split; [|reflexivity]. split; [|assumption]. exists n, m. repeat split; auto. discriminate.
  - destruct (Ks eq_refl) as [-> [n [m S]]].
    assert (EE : check_array_mod true false true (finite_arg dm f) x =
      if negb (all_finite_ok (finite_arg dm f) (a_data x) && min_size_ok (a_shape x)) then Err ValueError
      else if match finite_arg dm f with FFalse => existsb isnan (a_data x) | _ => false end then Err ValueError else Ok x).
    { unfold check_array_mod, check_array. rewrite Kx. cbn [negb]. destruct (finite_arg dm f); destruct (negb (_ && min_size_ok _)); reflexivity. }
    rewrite EE, S. cbn [min_size_ok].
    destruct (all_finite_ok (finite_arg dm f) (a_data x)) eqn:A; cbn [negb andb].
    2: { right. split; [|reflexivity]. intros [_ H]. apply FC in H. discriminate. }
    destruct ((1 <=? n) && (1 <=? m)) eqn:La; cbn [negb].
    2: { right. split; [|reflexivity]. intros [[n' [m' [E [H1 [H2 _]]]]] _]. injection E as <- <-. apply Z.leb_le in H1, H2. rewrite H1, H2 in La. discriminate. }
    destruct (match finite_arg dm f with FFalse => existsb isnan (a_data x) | _ => false end) eqn:B.
    { right. split; [|reflexivity]. intros [_ H]. apply FC in H. destruct (finite_arg dm f); try discriminate. rewrite B in H. discriminate. }
    cbn [bind]. rewrite Kx. cbn [negb andb]. rewrite andb_false_r. left. split; [|reflexivity].
    apply andb_true_iff in La as [L1 L2]. apply Z.leb_le in L1, L2. split; [exists n, m; repeat split; auto; discriminate|].
    apply FC. cbn [andb]. destruct (finite_arg dm f); try reflexivity. now rewrite B.
Qed.
(** A list of arrays and (if accepted) sparse matrices. *)
Theorem check_point_clouds_list : forall l dm sp f, l <> [] ->
  (forall x, In x l -> a_kind x <> Nested /\ (a_kind x = Sparse -> sp = true /\ exists n m, a_shape x = [n; m])) ->
  ((forall x, In x l -> good_entry dm f x) /\
   exists w, (w = true <-> dm = false /\ forall x, In x l -> exists n, a_shape x = [n; n]) /\
     (((forall x y, In x l -> In y l -> a_shape x = a_shape y) /\ check_point_clouds (CSeq l) dm sp f = Ok (OutStacked l, w)) \/
      (~ (forall x y, In x l -> In y l -> a_shape x = a_shape y) /\ check_point_clouds (CSeq l) dm sp f = Ok (OutList l, w)))) \/
  (~ (forall x, In x l -> good_entry dm f x) /\ check_point_clouds (CSeq l) dm sp f = Err ValueError).
Proof.
  intros l dm sp f NE K. unfold check_point_clouds. fold (finite_arg dm f).
  set (go := fun x => try_entry (check_entry dm sp (finite_arg dm f) x)).
  assert (G : forall m, incl m l -> exists cs, mapM go m = Ok cs /\
     ((forall x, In x m -> good_entry dm f x) /\ has_failed cs = false /\ kept cs = m \/ ~ (forall x, In x m -> good_entry dm f x) /\ has_failed cs = true)).
  { induction m as [|x m IH]; intros I; [exists []; split; [reflexivity|]; left; split; [intros ? []|split; reflexivity]|].
    destruct IH as [cs [E H]]; [intros y Iy; apply I; now right|]. destruct (K x (I x (or_introl eq_refl))) as [K1 K2].
    cbn [mapM]. unfold go at 1. destruct (check_entry_spec x dm sp f K1 K2) as [[Gx ->]|[Gx ->]]; cbn [try_entry bind]; rewrite E; cbn [bind].
    - eexists. split; [reflexivity|]. destruct H as [[H1 [H2 H3]]|[H1 H2]].
      + left. split; [intros y [<-|Iy]; auto|]. split; [assumption|]. unfold kept in *. cbn [flat_map app]. now rewrite H3.
      + right. split; [|assumption]. intros H. apply H1. intros y Iy. apply H. now right.
    - eexists. split; [reflexivity|]. right. split; [|reflexivity]. intros Hx. apply Gx, Hx. now left. }
  destruct (G l (incl_refl l)) as [cs [-> H]]. cbn [bind]. destruct H as [[H1 [H2 H3]]|[H1 H2]]; rewrite H2; [|right; auto].
  left. split; [assumption|]. rewrite H3.
  assert (Sq : forall m, incl m l -> exists bs, mapM square m = Ok bs /\ (forallb (fun b => b) bs = true <-> forall x, In x m -> exists n, a_shape x = [n; n])).
  { induction m as [|x m IH]; intros I; [exists []; split; [reflexivity|]; split; [intros _ ? []|reflexivity]|].
    destruct IH as [bs [E Hb]]; [intros y Iy; apply I; now right|]. cbn [mapM].
    destruct (K x (I x (or_introl eq_refl))) as [K1 _]. destruct (H1 x (I x (or_introl eq_refl))) as [[n [p [S _]]] _].
    assert (Ex : square x = Ok (n =? p)). { unfold square, get_shape. rewrite S. destruct (a_kind x); try contradiction; reflexivity. }
    rewrite Ex, E. cbn [bind]. eexists. split; [reflexivity|]. cbn [forallb]. rewrite andb_true_iff, Hb, Z.eqb_eq. split.
    - intros [-> Hx] y [<-|Iy]; eauto.
    - intros Hx. split; [|intros y Iy; apply Hx; now right]. destruct (Hx x (or_introl eq_refl)) as [q Sq]. congruence. }
  assert (W : exists w, (if dm then Ok false else do bs <- mapM square l; Ok (forallb (fun b => b) bs)) = Ok w /\
     (w = true <-> dm = false /\ forall x, In x l -> exists n, a_shape x = [n; n])).
  { destruct dm; [exists false; split; [reflexivity|]; split; [discriminate|intros [? _]; discriminate]|].
    destruct (Sq l (incl_refl l)) as [bs [-> Hb]]. cbn [bind]. eexists. split; [reflexivity|]. rewrite Hb. tauto. }
  destruct W as [w [-> Hw]]. cbn [bind]. exists w. split; [assumption|].
  assert (Sh : forall m, incl m l -> mapM get_shape m = Ok (map a_shape m)).
  { induction m as [|x m IH]; intros I; [reflexivity|]. cbn [mapM map]. rewrite IH by (intros y Iy; apply I; now right).
    destruct (K x (I x (or_introl eq_refl))) as [K1 _]. unfold get_shape. destruct (a_kind x); try contradiction; reflexivity. }
  destruct l as [|x l]; [contradiction|]. change (py_get (x :: l) 0) with (Ok x). cbn [bind tl].
  rewrite (Sh l) by (intros y Iy; now right). pose proof (Sh [x]) as Sx. cbn [mapM map] in Sx.
  assert (Gx : get_shape x = Ok (a_shape x)).
  { destruct (K x (or_introl eq_refl)) as [K1 _]. unfold get_shape. destruct (a_kind x); try contradiction; reflexivity. }
  rewrite Gx. cbn [bind].
  destruct (forallb (fun s => shape_eqb s (a_shape x)) (map a_shape l)) eqn:E.
  - left. split; [|reflexivity]. rewrite forallb_forall in E.
    assert (Q : forall y, In y (x :: l) -> a_shape y = a_shape x). { intros y [<-|I]; [reflexivity|]. apply shape_eqb_spec, E, in_map, I. }
    intros y z Iy Iz. now rewrite (Q y Iy), (Q z Iz).
  - right. split; [|reflexivity]. intros H. assert (forallb (fun s => shape_eqb s (a_shape x)) (map a_shape l) = true); [|congruence].
    apply forallb_forall. intros s Is. apply in_map_iff in Is as [y [<- Iy]]. apply shape_eqb_spec, H; [now right|now left].
Qed.
(** The empty list is refused with an IndexError, and not with a ValueError. *)
Theorem check_point_clouds_empty : forall dm sp f, check_point_clouds (CSeq []) dm sp f = Err IndexError.
Proof. intros [|] sp f; reflexivity. Qed.
(** Lists of nested lists are never accepted. *)
Theorem check_point_clouds_nested : forall l dm sp f x out, In x l -> a_kind x = Nested -> check_point_clouds (CSeq l) dm sp f <> Ok out.
Proof.
  intros l dm sp f x out I K E. unfold check_point_clouds in E. fold (finite_arg dm f) in E.
  destruct (mapM _ l) as [cs|] eqn:M; [|discriminate]. cbn [bind] in E. destruct (has_failed cs) eqn:F; [discriminate|].
  assert (C : forall A B (g : A -> res B) l ys y, mapM g l = Ok ys -> In y l -> exists z, g y = Ok z /\ In z ys).
  { clear. induction l as [|a l IH]; intros ys y E I; [destruct I|]. cbn in E. destruct (g a) as [b|] eqn:Ea; [|discriminate]. cbn [bind] in E.
    destruct (mapM g l) as [bs|] eqn:El; [|discriminate]. cbn [bind] in E. injection E as <-. destruct I as [<-|I]; [exists b; split; [assumption|now left]|].
    destruct (IH _ _ eq_refl I) as [z [? ?]]. exists z. split; [assumption|now right]. }
  destruct dm.
  - destruct (C _ _ _ _ _ _ M I) as [c [Ec Ic]]. unfold check_entry in Ec.
    assert (Kn : forall xnew, check_array_mod true false sp (finite_arg true f) x = Ok xnew -> a_kind xnew = Dense).
    { intros xnew. unfold check_array_mod, check_array. rewrite K.
      destruct (true && (zlen (a_shape x) <? 2)), (negb false && (3 <=? zlen (a_shape x))), (negb (all_finite_ok (finite_arg true f) (a_data x))), (zlen (a_shape x) =? 0), (negb (min_size_ok (a_shape x))); destruct (finite_arg true f); cbn [bind]; try discriminate;
        try (intros H; injection H as <-; reflexivity). cbn [a_data]. destruct (existsb _ _); [discriminate|]. intros H; injection H as <-; reflexivity. }
    destruct (check_array_mod _ _ _ _ x) as [xnew|e] eqn:Ex; cbn [bind] in Ec.
    + rewrite (Kn _ eq_refl) in Ec. cbn [andb negb] in Ec. unfold square, get_shape in Ec. rewrite K in Ec. discriminate Ec.
    + destruct e; try discriminate Ec. injection Ec as <-. assert (has_failed cs = true); [|congruence]. apply existsb_exists. exists Failed. auto.
  - destruct (mapM square l) as [bs|] eqn:S; [|discriminate]. destruct (C _ _ _ _ _ _ S I) as [b [Eb _]].
    unfold square, get_shape in Eb. rewrite K in Eb. discriminate Eb.
Qed.
(** Sparse distance matrices need not be square. *)
Theorem check_point_clouds_sparse_square_refuted : exists x n m, a_shape x = [n; m] /\ n <> m /\
  check_point_clouds (CSeq [x]) true true None = Ok (OutStacked [x], false).
Proof. exists (MkArr Sparse [2; 3] [fz 1]), 2, 3. split; [reflexivity|]. split; [lia|reflexivity]. Qed.
(** check_collection on a list: all entries must be non-empty arrays with allowed values; any number (at least 1) of axes. *)
Theorem check_collection_list : forall l sp f, (forall x, In x l -> a_kind x = Dense /\ a_shape x <> []) ->
  let good x := (forall y, In y (a_data x) -> allowed false f y) /\
                (exists n s, a_shape x = n :: s /\ 1 <= n /\ forall m, s = [m] -> 1 <= m) in
  ((forall x, In x l -> good x) /\ check_collection (CSeq l) sp f = Ok (OutList l)) \/
  (~ (forall x, In x l -> good x) /\ check_collection (CSeq l) sp f = Err ValueError).
Proof.
  intros l sp f K good. unfold check_collection.
  assert (Ff : match f with Some f => f | None => FTrue end = finite_arg false f) by (destruct f; reflexivity). rewrite Ff.
  assert (Q : forall x, a_kind x = Dense -> a_shape x <> [] ->
    (good x /\ check_array_mod false true sp (finite_arg false f) x = Ok x) \/ (~ good x /\ check_array_mod false true sp (finite_arg false f) x = Err ValueError)).
  { intros x Kx Sx. rewrite check_array_mod_dense by assumption. pose proof (finite_checks false f (a_data x)) as FC. unfold good. cbn [andb negb].
    assert (Z0 : zlen (a_shape x) =? 0 = false).
    { destruct (a_shape x); [contradiction|]. apply Z.eqb_neq. rewrite zlen_cons. pose proof (zlen_nonneg l0). lia. }
    rewrite Z0. assert (MS : min_size_ok (a_shape x) = true <-> exists n s, a_shape x = n :: s /\ 1 <= n /\ forall m, s = [m] -> 1 <= m).
    { destruct (a_shape x) as [|n [|m [|p s]]]; [contradiction|..]; cbn [min_size_ok]; rewrite ?andb_true_iff, ?Z.leb_le; split.
      - intros H. exists n, []. repeat split; auto; discriminate.
      - intros [n' [s' [E [H _]]]]. injection E as <- <-. assumption.
      - intros [H1 H2]. exists n, [m]. repeat split; auto. intros m' E. now injection E as <-.
      - intros [n' [s' [E [H1 H2]]]]. injection E as <- <-. auto.
      - intros H. exists n, (m :: p :: s). repeat split; auto; discriminate.
      - intros [n' [s' [E [H _]]]]. injection E as <- <-. assumption. }
    destruct (all_finite_ok (finite_arg false f) (a_data x)) eqn:A; cbn [negb].
    2: { right. split; [|reflexivity]. intros [H _]. apply FC in H. discriminate. }
    destruct (min_size_ok (a_shape x)) eqn:B; cbn [negb].
    2: { right. split; [|reflexivity]. intros [_ H]. apply MS in H. discriminate. }
    destruct (match finite_arg false f with FFalse => existsb isnan (a_data x) | _ => false end) eqn:C.
    { right. split; [|reflexivity]. intros [H _]. apply FC in H. destruct (finite_arg false f); try discriminate. rewrite C in H. discriminate. }
    left. split; [|reflexivity]. split; [|now apply MS]. apply FC. cbn [andb]. destruct (finite_arg false f); try reflexivity. now rewrite C. }
  set (go := fun x => try_entry _).
  assert (G : forall m, incl m l -> exists cs, mapM go m = Ok cs /\
     ((forall x, In x m -> good x) /\ has_failed cs = false /\ kept cs = m \/ ~ (forall x, In x m -> good x) /\ has_failed cs = true)).
  { induction m as [|x m IH]; intros I; [exists []; split; [reflexivity|]; left; split; [intros ? []|split; reflexivity]|].
    destruct IH as [cs [E H]]; [intros y Iy; apply I; now right|]. destruct (K x (I x (or_introl eq_refl))) as [K1 K2].
    cbn [mapM]. unfold go at 1. destruct (Q x K1 K2) as [[Gx ->]|[Gx ->]]; cbn [try_entry bind]; rewrite E; cbn [bind].
    - eexists. split; [reflexivity|]. destruct H as [[H1 [H2 H3]]|[H1 H2]].
      + left. split; [intros y [<-|Iy]; auto|]. split; [assumption|]. unfold kept in *. cbn [flat_map app]. now rewrite H3.
      + right. split; [|assumption]. intros H. apply H1. intros y Iy. apply H. now right.
    - eexists. split; [reflexivity|]. right. split; [|reflexivity]. intros Hx. apply Gx, Hx. now left. }
  destruct (G l (incl_refl l)) as [cs [-> H]]. cbn [bind]. destruct H as [[H1 [H2 H3]]|[H1 H2]]; rewrite H2; [left|right; auto].
  split; [assumption|]. now rewrite H3.
Qed.
Example check_point_clouds_ex :
  check_point_clouds (CSeq [MkArr Dense [1; 1] [PInf]; MkArr Dense [2; 2] (map fz [0; 1; 1; 0])]) true false None =
    Ok (OutList [MkArr Dense [1; 1] [PInf]; MkArr Dense [2; 2] (map fz [0; 1; 1; 0])], false) /\
  check_point_clouds (CSeq [MkArr Dense [1; 1] [PInf]]) false false None = Err ValueError.
Proof. split; reflexivity. Qed.
Print Assumptions check_point_clouds_list.
