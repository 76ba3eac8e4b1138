(** C57: StandardFeatures. *)
From Coq Require Import String.
From Verif Require CoverProofs.
From Verif Require Import Np NpFacts Fl FlFacts VecModel SliceFacts MetricProofs CurveModel CurveSpec.
Open Scope Z_scope.

Section Features.
Context {V : Type}.
Variable is_array : V -> bool.
Variable reduce : string -> list (string * V) -> list Qc -> res Qc.
Notation params := (list (string * V)).

(** ** fit *)
Lemma is_available_iff s : is_available s = true <-> In s available.
Proof.
  unfold is_available. rewrite existsb_exists. split.
  - intros (t & Ht & E). apply String.eqb_eq in E. now subst.
  - intro H. exists s. split; auto. apply String.eqb_refl.
Qed.
Lemma check_params_iff s p : check_params is_array s p = Ok tt <-> allowed is_array s p.
Proof.
  unfold allowed. induction p as [|[k v] t IH]; cbn [check_params].
  - split; auto. intros _ ? ? [].
  - destruct (String.eqb_spec s "average") as [->|N]; cbn [andb].
    + destruct (String.eqb_spec k "weights") as [->|N].
      * destruct (is_array v) eqn:A.
        -- rewrite IH. split; intros H k' v' I; [destruct I as [I|I]; [injection I as <- <-; auto|auto]|apply H; now right].
        -- split; [easy|]. intro H. destruct (H _ _ (or_introl eq_refl)) as (_ & _ & ?). congruence.
      * split; [easy|]. intro H. now destruct (H _ _ (or_introl eq_refl)) as (_ & ? & _).
    + split; [easy|]. intro H. now destruct (H _ _ (or_introl eq_refl)).
Qed.
Lemma check_params_cases s p : check_params is_array s p = Ok tt \/ exists e, check_params is_array s p = Err e.
Proof. destruct (check_params is_array s p) as [[]|e]; eauto. Qed.

Definition dflt (p : option params) : params := match p with None => [] | Some p => p end.
Lemma effective_loop_ok l r : effective_loop is_array l = Ok r <->
  r = map (fun fp => (fst fp, dflt (snd fp))) l /\
  forall s p, In (Some (Name s), p) l -> exists p', p = Some p' /\ allowed is_array s p'.
Proof.
  revert r; induction l as [|[f p] l IH]; intro r; cbn [effective_loop map].
  - split; [injection 1 as <-; split; auto; intros ? ? []|]. now intros [-> _].
  - split.
    + intro H. destruct f as [[s|g]|]; cbn [bind] in H.
      * destruct p as [p|]; [|easy]. destruct (check_params is_array s p) as [[]|] eqn:E; [|easy]. cbn [bind] in H.
        destruct (effective_loop is_array l) as [r'|] eqn:E'; [|easy]. injection H as <-.
        destruct (proj1 (IH r') eq_refl) as [-> K]. split; auto. intros s' p' [I|I]; [|eauto].
        injection I as <- <-. exists p. split; auto. now apply check_params_iff.
      * destruct (effective_loop is_array l) as [r'|] eqn:E'; [|easy]. injection H as <-.
        destruct (proj1 (IH r') eq_refl) as [-> K]. split; auto. intros s' p' [I|I]; [easy|eauto].
      * destruct (effective_loop is_array l) as [r'|] eqn:E'; [|easy]. injection H as <-.
        destruct (proj1 (IH r') eq_refl) as [-> K]. split; auto. intros s' p' [I|I]; [easy|eauto].
    + intros [-> K].
      assert (E' : effective_loop is_array l = Ok (map (fun fp => (fst fp, dflt (snd fp))) l)).
      { apply IH. split; auto. intros s' p' I. apply K. now right. }
      destruct f as [[s|g]|]; cbn [bind]; try (rewrite E'; reflexivity).
      destruct (K s p (or_introl eq_refl)) as (p' & -> & A). rewrite (proj2 (check_params_iff _ _) A). cbn [bind].
      rewrite E'. reflexivity.
Qed.

(** What fit stores: for each channel the function and the arguments meant for it. *)
Definition stores (e : effective V) (fa : function_arg V) (pa : params_arg V) (n : Z) : Prop :=
  match e with
  | EOne s p => fa = FOne (Name s) /\ chosen fa pa 0 = Some (Name s, p)
  | EMany l => zlen l = n /\ (forall j f p, Znth l j = Some (f, p) ->
      match f with Some f => chosen fa pa j = Some (f, p) | None => chosen fa pa j = None end) /\
      match fa with FOne (Name _) => False | _ => True end
  end.

Lemma Znth_repeat {A} (a : A) k i : 0 <= i < Z.of_nat k -> Znth (repeat a k) i = Some a.
Proof.
  intro H. destruct (Znth_ex (repeat a k) i) as [x Hx]; [unfold zlen; rewrite repeat_length; lia|].
  rewrite Hx. f_equal. eapply repeat_spec, Znth_In; eauto.
Qed.

Theorem features_fit_spec fa pa n : 0 <= n ->
  ((exists e, features_fit is_array fa pa n = Ok e) <-> acceptable is_array fa pa n) /\
  forall e, features_fit is_array fa pa n = Ok e -> stores e fa pa n.
Proof.
  intro Hn. unfold features_fit, validate_features, acceptable.
  destruct fa as [[s|g]|l].
  - pose proof (is_available_iff s) as A. destruct (is_available s); cbn [bind].
    2:{ split; [|easy]. split; [now intros (e & ?)|]. intros [I _]. now apply A in I. }
    destruct pa as [|p|ps]; cbn [bind].
    + split; [split; [tauto|eauto]|]. intros e H. injection H as <-. split; auto.
    + pose proof (check_params_iff s p) as C. destruct (check_params is_array s p) as [[]|]; cbn [bind].
      * split; [split; [tauto|eauto]|]. intros e H. injection H as <-. split; auto.
      * split; [|easy]. split; [now intros (e' & ?)|]. intros [_ I]. now apply C in I.
    + split; [|easy]. split; [now intros (e & ?)|tauto].
  - cbn [bind]. destruct pa as [|p|ps]; cbn [bind].
    + split; [split; eauto|]. intros e H. injection H as <-. cbn [stores]. split; [unfold zlen; rewrite repeat_length; lia|].
      split; auto. intros j f p H. apply Znth_In, repeat_spec in H. injection H as -> ->. reflexivity.
    + split; [split; eauto|]. intros e H. injection H as <-. cbn [stores]. split; [unfold zlen; rewrite repeat_length; lia|].
      split; auto. intros j f p' H. apply Znth_In, repeat_spec in H. injection H as -> ->. reflexivity.
    + split; [|easy]. split; [now intros (e & ?)|tauto].
  - assert (A : forallb (fun f => match f with Some (Name s) => is_available s | _ => true end) l = true <->
      forall s, In (Some (Name s)) l -> In s available).
    { rewrite forallb_forall. split.
      - intros H s I. apply is_available_iff. exact (H _ I).
      - intros H [[s|g]|] I; auto. now apply is_available_iff, H. }
    destruct (forallb _ l); cbn [bind].
    2:{ split; [|easy]. split; [now intros (e & ?)|]. intros (_ & I & _). now apply A in I. }
    destruct pa as [|p|ps]; cbn [bind].
    + destruct (Z.eqb_spec (zlen l) n) as [L|L]; cbn [negb bind].
      2:{ split; [|easy]. split; [now intros (e & ?)|tauto]. }
      assert (E : effective_loop is_array (combine l (repeat (Some []) (Z.to_nat n))) =
        Ok (map (fun fp => (fst fp, dflt (snd fp))) (combine l (repeat (Some []) (Z.to_nat n))))).
      { apply effective_loop_ok. split; auto. intros s p I. apply in_combine_r, repeat_spec in I as ->.
        exists []. split; auto. intros ? ? []. }
      rewrite E. cbn [bind]. split; [split; [tauto|eauto]|]. intros e H. injection H as <-. cbn [stores].
      split; [rewrite zlen_map; unfold zlen in *; rewrite combine_length, repeat_length; lia|]. split; auto.
      intros j f p H. rewrite Znth_map in H. destruct (Znth _ j) as [[f' p']|] eqn:Ej; [|easy]. cbn in H. injection H as <- <-.
      pose proof (Znth_Some_lt _ _ _ Ej) as B. unfold zlen in B. rewrite combine_length, repeat_length in B.
      destruct (Znth_ex l j) as [f'' Hf]; [lia|].
      assert (Hr : Znth (repeat (Some (@nil (string * V))) (Z.to_nat n)) j = Some (Some [])) by (apply Znth_repeat; lia).
      rewrite (Znth_combine _ _ _ _ _ Hf Hr) in Ej. injection Ej as <- <-. unfold chosen. rewrite Hf.
      destruct f''; reflexivity.
    + split; [|easy]. split; [now intros (e & ?)|tauto].
    + destruct (Z.eqb_spec (zlen l) n) as [L|L]; cbn [negb bind].
      2:{ split; [|easy]. split; [now intros (e & ?)|tauto]. }
      destruct (Z.eqb_spec (zlen ps) n) as [L'|L']; cbn [negb bind].
      2:{ split; [|easy]. split; [now intros (e & ?)|tauto]. }
      assert (EQ : (exists e, effective_loop is_array (combine l ps) = Ok e) <->
        forall j s, Znth l j = Some (Some (Name s)) -> exists p, Znth ps j = Some (Some p) /\ allowed is_array s p).
      { split.
        - intros (e & H) j s Hj. apply effective_loop_ok in H as [_ H]. pose proof (Znth_Some_lt _ _ _ Hj).
          destruct (Znth_ex ps j) as [p Hp]; [lia|].
          destruct (H s p) as (p' & -> & A'). { apply (Znth_In _ j). now apply Znth_combine. }
          eauto.
        - intros H. eexists. apply effective_loop_ok. split; [reflexivity|]. intros s p I.
          apply In_Znth in I as (j & B & Hj). unfold zlen in B. rewrite combine_length in B. unfold zlen in L, L'.
          destruct (Znth_ex l j) as [f Hf]; [unfold zlen; lia|]. destruct (Znth_ex ps j) as [p' Hp]; [unfold zlen; lia|].
          rewrite (Znth_combine _ _ _ _ _ Hf Hp) in Hj. injection Hj as -> ->.
          destruct (H j s Hf) as (p' & E & A'). rewrite Hp in E. injection E as ->. eauto. }
      split.
      * rewrite <- EQ. split.
        -- intros (e & H). destruct (effective_loop is_array (combine l ps)) as [r|]; [|easy]. repeat split; eauto. tauto.
        -- intros (_ & _ & _ & r & ->). cbn. eauto.
      * intros e H. destruct (effective_loop is_array (combine l ps)) as [r|] eqn:E; [|easy]. cbn in H. injection H as <-.
        apply effective_loop_ok in E as [-> K]. cbn [stores].
        split; [rewrite zlen_map; unfold zlen in *; rewrite combine_length; lia|]. split; auto.
        intros j f p H. rewrite Znth_map in H. destruct (Znth _ j) as [[f' p']|] eqn:Ej; [|easy]. cbn in H. injection H as <- <-.
        pose proof (Znth_Some_lt _ _ _ Ej) as B. unfold zlen in B, L, L'. rewrite combine_length in B.
        destruct (Znth_ex l j) as [f'' Hf]; [unfold zlen; lia|]. destruct (Znth_ex ps j) as [p'' Hp]; [unfold zlen; lia|].
        rewrite (Znth_combine _ _ _ _ _ Hf Hp) in Ej. injection Ej as <- <-. unfold chosen. rewrite Hf, Hp.
        destruct f''; reflexivity.
Qed.

(** ** transform *)
Notation call := (call reduce).
Notation channel_block := (channel_block reduce).

Lemma mapM_concat_iff {A B} (f : A -> res B) L r : mapM f (concat L) = Ok r <->
  exists R, Forall2 (fun l r => mapM f l = Ok r) L R /\ r = concat R.
Proof.
  revert r; induction L as [|l L IH]; intro r; cbn [concat].
  - split; [injection 1 as <-; exists []; auto|]. now intros (R & H & ->); inversion H.
  - rewrite mapM_app. split.
    + intro H. destruct (mapM f l) as [a|] eqn:E; [|easy]. cbn [bind] in H.
      destruct (mapM f (concat L)) as [b|] eqn:E'; [|easy]. cbn [bind] in H. injection H as <-.
      destruct (proj1 (IH b) eq_refl) as (R & F & ->). exists (a :: R). split; auto.
    + intros (R & F & ->). inversion F as [|? a ? R' Ha F']; subst. rewrite Ha. cbn [bind concat].
      rewrite (proj2 (IH (concat R'))); eauto.
Qed.

Lemma reshape_blocks (L : list (list Qc)) d : L <> [] -> (forall l, In l L -> zlen l = d) ->
  np_reshape (concat L) (zlen L) = Ok L.
Proof.
  intros NE H. unfold np_reshape. rewrite (zlen_concat_uniform L d H).
  assert (0 < zlen L) by (destruct L; [easy|rewrite zlen_cons; pose proof (zlen_nonneg L); lia]).
  rewrite Z.mul_comm, Z.mod_mul by lia. cbn [negb Z.eqb]. rewrite Z.div_mul by lia. f_equal.
  apply Znth_ext; [rewrite zlen_tabZ; lia|]. intros i Hi. rewrite zlen_tabZ in Hi by lia.
  destruct (Znth_ex L i) as [l Hl]; [lia|]. rewrite Znth_tabZ, Hl by lia. f_equal. now apply py_sub_concat.
Qed.

(** One channel: the call on it, or nothing. *)
Definition blk (fx : option (func V) * params * list Qc) (b : list Qc) : Prop :=
  match fst (fst fx) with
  | None => b = []
  | Some f => exists o, call f (snd (fst fx)) (snd fx) = Ok o /\ b = np_ravel o
  end.
Notation calls_of := (fun fx : option (func V) * params * list Qc =>
  match fst (fst fx) with Some f => [(f, snd (fst fx), snd fx)] | None => [] end).
Notation docall := (fun c : func V * params * list Qc => let '(f, p, x) := c in call f p x).

Lemma sample_calls l os : mapM docall (flat_map calls_of l) = Ok os ->
  exists bs, Forall2 blk l bs /\ concat (map np_ravel os) = concat bs.
Proof.
  revert os; induction l as [|[[f p] x] l IH]; intros os H; cbn [flat_map] in H.
  - injection H as <-. exists []. auto.
  - rewrite mapM_app in H. cbn [fst snd] in H. destruct f as [f|].
    + cbn [mapM bind] in H. destruct (call f p x) as [o|] eqn:E; [|easy]. cbn [bind] in H.
      destruct (mapM docall (flat_map calls_of l)) as [os'|]; [|easy]. cbn [bind app] in H. injection H as <-.
      destruct (IH os' eq_refl) as (bs & F & EQ). exists (np_ravel o :: bs). split.
      * constructor; auto. unfold blk. cbn [fst snd]. eauto.
      * cbn [map concat]. now rewrite EQ.
    + cbn [mapM bind] in H. destruct (mapM docall (flat_map calls_of l)) as [os'|]; [|easy]. cbn [bind app] in H. injection H as <-.
      destruct (IH os' eq_refl) as (bs & F & EQ). exists ([] :: bs). split; [|easy].
      constructor; auto. reflexivity.
Qed.
Lemma sample_calls_conv l bs : Forall2 blk l bs ->
  exists os, mapM docall (flat_map calls_of l) = Ok os /\ concat (map np_ravel os) = concat bs.
Proof.
  induction 1 as [|[[f p] x] b l bs Hb F (os & E & EQ)]; cbn [flat_map].
  - exists []. auto.
  - rewrite mapM_app, E. unfold blk in Hb. cbn [fst snd] in *. destruct f as [f|].
    + destruct Hb as (o & Ho & ->). cbn [mapM bind]. rewrite Ho. cbn. eexists. split; [reflexivity|].
      cbn [map concat]. now rewrite EQ.
    + subst b. cbn. eauto.
Qed.

(** The rows of all samples, before they are put in one array. *)
Lemma many_spec fs X rows : X <> [] ->
  (parallel_featurization reduce (EMany fs) X = Ok rows <->
   exists rs, Forall2 (fun x r => exists bs, Forall2 blk (combine fs x) bs /\ r = concat bs) X rs /\
              np_reshape (concat rs) (zlen X) = Ok rows).
Proof.
  intro NE. cbn [parallel_featurization]. rewrite flat_map_concat_map. split.
  - intro H. destruct (mapM _ _) as [outs|] eqn:E; [|easy]. cbn [bind] in H.
    apply mapM_concat_iff in E as (R & F & ->). clear NE.
    enough (K : exists rs, Forall2 (fun x r => exists bs, Forall2 blk (combine fs x) bs /\ r = concat bs) X rs /\
        concat (map np_ravel (concat R)) = concat rs).
    { destruct K as (rs & K & EQ). exists rs. split; auto. now rewrite <- EQ. }
    clear H. revert R F. induction X as [|x X IH]; intros R F; inversion F as [|? os ? R' Ho F']; subst.
    + exists []. auto.
    + destruct (IH _ F') as (rs & K & EQ). apply sample_calls in Ho as (bs & Fb & Eb).
      exists (concat bs :: rs). split; [constructor; eauto|]. cbn [concat]. now rewrite map_app, concat_app, Eb, EQ.
  - intros (rs & F & H). clear NE.
    enough (K : exists R, Forall2 (fun l r => mapM docall l = Ok r) (map (fun x => flat_map calls_of (combine fs x)) X) R /\
        concat (map np_ravel (concat R)) = concat rs).
    { destruct K as (R & K & EQ). rewrite (proj2 (mapM_concat_iff _ _ (concat R))) by eauto. cbn [bind]. now rewrite EQ. }
    clear H. induction F as [|x r X rs (bs & Fb & ->) F (R & K & EQ)]; cbn [map].
    + exists []. auto.
    + apply sample_calls_conv in Fb as (os & Eo & EQo). exists (os :: R). split; [constructor; auto|].
      cbn [concat]. now rewrite map_app, concat_app, EQo, EQ.
Qed.

Lemma call_gives f p x b : f <> Name "identity" ->
  ((exists o, call f p x = Ok o /\ b = np_ravel o) <-> gives reduce f p x b).
Proof.
  intro NI. destruct f as [s|g]; cbn [CurveModel.call gives].
  - destruct (string_dec s "identity") as [->|N]; [easy|]. apply String.eqb_neq in N. rewrite N. split.
    + intros (o & H & ->). destruct (reduce s p x) as [a|]; [|easy]. injection H as <-. eauto.
    + intros (a & -> & ->). exists (Sc a). auto.
  - split.
    + intros ([a|l] & H & ->); cbn [np_ravel]; [right; eauto|auto].
    + intros [H|(a & H & ->)]; [exists (Vc b)|exists (Sc a)]; auto.
Qed.

(** No list of functions contains "identity". *)
Definition no_identity (fa : function_arg V) : Prop :=
  match fa with FMany l => ~ In (Some (Name "identity")) l | _ => True end.

(** A row: the blocks of the channels side by side. *)
Definition row_of fa pa (x : list (list Qc)) (row : list Qc) : Prop :=
  exists blocks, zlen blocks = zlen x /\
    (forall j xj b, Znth x j = Some xj -> Znth blocks j = Some b -> channel_block fa pa j xj b) /\
    row = concat blocks.

Lemma blk_iff fs fa pa n j f p x b : stores (EMany fs) fa pa n -> no_identity fa ->
  Znth fs j = Some (f, p) -> (blk (f, p, x) b <-> channel_block fa pa j x b).
Proof.
  intros (_ & S & NN) NI Hj. specialize (S _ _ _ Hj). unfold blk, CurveSpec.channel_block. cbn [fst snd].
  destruct f as [f|]; rewrite S; [|easy]. apply call_gives. intros ->.
  unfold chosen in S. destruct fa as [f|l].
  - injection S as -> _. easy.
  - destruct (Znth l j) as [[f|]|] eqn:E; try easy. injection S as -> _. apply NI. eapply Znth_In; eauto.
Qed.
Lemma Forall2_of_Znth {A B} (P : A -> B -> Prop) l r : zlen l = zlen r ->
  (forall i a b, Znth l i = Some a -> Znth r i = Some b -> P a b) -> Forall2 P l r.
Proof.
  revert r; induction l as [|a l IH]; intros [|b r] E H; try (rewrite ?zlen_cons in E; unfold zlen in E; simpl in E; lia); constructor.
  - apply (H 0); reflexivity.
  - apply IH; [rewrite !zlen_cons in E; lia|]. intros i x y Hx Hy. pose proof (Znth_Some_lt _ _ _ Hx). apply (H (1 + i)).
    + now rewrite CoverProofs.Znth_S by lia.
    + now rewrite CoverProofs.Znth_S by lia.
Qed.
Lemma blocks_iff fs fa pa n x r : stores (EMany fs) fa pa n -> no_identity fa -> zlen x = n ->
  ((exists bs, Forall2 blk (combine fs x) bs /\ r = concat bs) <-> row_of fa pa x r).
Proof.
  intros S NI L. pose proof S as (LF & _).
  assert (LC : zlen (combine fs x) = zlen x) by (unfold zlen in *; rewrite combine_length; lia).
  split; intros (bs & H).
  - destruct H as [F ->]. exists bs. split; [rewrite <- (Forall2_zlen _ _ _ F); exact LC|]. split; auto.
    intros j xj b Hx Hb. destruct (Znth_ex fs j) as [[f p] Hf]; [pose proof (Znth_Some_lt _ _ _ Hx); lia|].
    apply (blk_iff fs fa pa n j f p); auto. refine (Forall2_Znth _ _ _ _ _ _ F _ Hb). now apply Znth_combine.
  - destruct H as (L' & H & ->). exists bs. split; auto. apply Forall2_of_Znth; [lia|].
    intros i [[f p] xi] b Hc Hb. pose proof (Znth_Some_lt _ _ _ Hc) as B.
    destruct (Znth_ex fs i) as [fp Hf]; [lia|]. destruct (Znth_ex x i) as [xj Hx]; [lia|].
    rewrite (Znth_combine _ _ _ _ _ Hf Hx) in Hc. injection Hc as -> ->.
    apply (blk_iff fs fa pa n i f p); eauto.
Qed.

Lemma Forall2_iff' {A B} (P Q : A -> B -> Prop) l r : (forall a b, In a l -> (P a b <-> Q a b)) -> (Forall2 P l r <-> Forall2 Q l r).
Proof.
  revert r; induction l as [|a l IH]; intros r H; split; intro F; inversion F; subst; constructor;
    try (apply H; [now left|assumption]); try (apply IH; [intros; apply H; now right|assumption]).
Qed.

(** The number of features of a channel is the same for all the samples. *)
Definition same_sizes fa pa (X : list (list (list Qc))) : Prop :=
  forall x x' j xj xj' b b', In x X -> In x' X -> Znth x j = Some xj -> Znth x' j = Some xj' ->
    channel_block fa pa j xj b -> channel_block fa pa j xj' b' -> zlen b = zlen b'.

Lemma row_width fa pa X x x' r r' n : same_sizes fa pa X -> In x X -> In x' X -> zlen x = n -> zlen x' = n ->
  row_of fa pa x r -> row_of fa pa x' r' -> zlen r = zlen r'.
Proof.
  intros SS I I' L L' (bs & Lb & Hb & ->) (bs' & Lb' & Hb' & ->).
  assert (K : forall j b b', Znth bs j = Some b -> Znth bs' j = Some b' -> zlen b = zlen b').
  { intros j b b' Eb Eb'. pose proof (Znth_Some_lt _ _ _ Eb).
    destruct (Znth_ex x j) as [y Hy]; [lia|]. destruct (Znth_ex x' j) as [y' Hy']; [lia|].
    apply (SS x x' j y y'); auto; eauto. }
  assert (E : zlen bs = zlen bs') by lia. clear - K E. revert bs' K E.
  induction bs as [|b bs IH]; intros [|b' bs'] K E; try (rewrite ?zlen_cons in E; unfold zlen in E; simpl in E; lia); auto.
  cbn [concat]. rewrite !zlen_app. rewrite (K 0 b b') by reflexivity. f_equal. apply IH; [|rewrite !zlen_cons in E; lia].
  intros j c c' Hc Hc'. apply (K (1 + j)); rewrite CoverProofs.Znth_S; auto; eapply Znth_Some_lt; eauto.
Qed.

Lemma mapM_iff {A B} (f : A -> res B) l r : mapM f l = Ok r <-> Forall2 (fun x y => f x = Ok y) l r.
Proof. split; [apply mapM_Ok_inv|apply mapM_Forall2]. Qed.
Lemma concat_singles {A} (l : list A) : concat (map (fun a => [a]) l) = l.
Proof. induction l; cbn; congruence. Qed.

Lemma one_row s p fa pa x r : fa = FOne (Name s) -> chosen fa pa 0 = Some (Name s, p) -> s <> "identity"%string ->
  (mapM (reduce s p) x = Ok r <-> row_of fa pa x r).
Proof.
  intros -> C N. rewrite mapM_iff. unfold row_of, CurveSpec.channel_block. cbn [chosen] in *. injection C as C.
  unfold gives. destruct (string_dec s "identity"); [easy|]. rewrite C. split.
  - intro F. exists (map (fun a => [a]) r). rewrite concat_singles, zlen_map. split; [now rewrite (Forall2_zlen _ _ _ F)|].
    split; auto. intros j xj b Hx Hb. rewrite Znth_map in Hb. destruct (Znth r j) as [a|] eqn:E; [|easy]. injection Hb as <-.
    exists a. split; auto. exact (Forall2_Znth _ _ _ _ _ _ F Hx E).
  - intros (bs & L & H & ->). apply Forall2_of_Znth.
    + rewrite (zlen_concat_uniform bs 1); [lia|]. intros b I. apply In_Znth in I as (j & B & Hj).
      destruct (Znth_ex x j) as [y Hy]; [lia|]. destruct (H _ _ _ Hy Hj) as (a & _ & ->). reflexivity.
    + intros i y a Hy Ha. pose proof (Znth_Some_lt _ _ _ Hy). destruct (Znth_ex bs i) as [b Hb]; [lia|].
      destruct (H _ _ _ Hy Hb) as (a' & E & ->). rewrite E. f_equal.
      assert (U : forall l, In l bs -> zlen l = 1).
      { intros l I. apply In_Znth in I as (j & B & Hj).
        destruct (Znth_ex x j) as [y' Hy']; [lia|]. destruct (H _ _ _ Hy' Hj) as (? & _ & ->). reflexivity. }
      pose proof (py_sub_concat bs 1 i _ U Hb) as P.
      assert (LL : zlen (concat bs) = zlen bs) by (rewrite (zlen_concat_uniform bs 1 U); lia).
      destruct (py_sub_spec (concat bs) (i * 1) ((i + 1) * 1)) as [_ P2]; [lia|lia|].
      specialize (P2 0 ltac:(lia)). rewrite P in P2. replace (i * 1 + 0) with i in P2 by lia. rewrite Ha in P2.
      injection P2 as P2. exact P2.
Qed.
Lemma identity_row pa fa x r : fa = FOne (Name "identity") -> chosen fa pa 0 = Some (Name "identity", []) ->
  (row_of fa pa x r <-> r = concat x).
Proof.
  intros -> C. unfold row_of, CurveSpec.channel_block. cbn [chosen] in *. injection C as C. unfold gives. cbn. rewrite C. split.
  - intros (bs & L & H & ->). f_equal. apply Znth_ext; auto. intros i Hi. destruct (Znth_ex bs i) as [b Hb]; [lia|].
    destruct (Znth_ex x i) as [y Hy]; [lia|]. destruct (H _ _ _ Hy Hb) as [_ ->]. congruence.
  - intros ->. exists x. split; auto. split; auto. intros j xj b Hx Hb. split; auto. congruence.
Qed.

(** The whole transform: the rows of the samples, each made of the blocks of its channels, when each
    channel's function returns as many values for all samples. *)
Theorem features_spec fa pa n t X rows : 0 <= n -> features_fit is_array fa pa n = Ok t ->
  X <> [] -> (forall x, In x X -> zlen x = n) -> no_identity fa -> same_sizes fa pa X ->
  (features_transform reduce t n n X = Ok rows <-> Forall2 (row_of fa pa) X rows).
Proof.
  intros Hn FT NE LX NI SS. unfold features_transform. rewrite Z.eqb_refl. cbn [negb].
  pose proof (proj1 (features_fit_spec fa pa n Hn)) as ACC. pose proof (proj2 (features_fit_spec fa pa n Hn) _ FT) as S.
  destruct t as [s p|fs].
  - cbn [parallel_featurization]. destruct S as [-> C]. destruct (String.eqb_spec s "identity") as [->|N].
    + assert (p = []) as ->.
      { destruct (proj1 ACC (ex_intro _ _ FT)) as [_ A]. cbn [chosen] in C. injection C as C.
        destruct pa as [|q|q]; auto. subst q. destruct p as [|[k v] p]; auto.
        destruct (A k v (or_introl eq_refl)) as [? _]. easy. }
      rewrite (Forall2_iff' _ (fun x r => r = concat x)) by (intros; now apply identity_row). split.
      * injection 1 as <-. clear. induction X; constructor; auto.
      * intro F. f_equal. clear - F. induction F; cbn; congruence.
    + rewrite mapM_iff. apply Forall2_iff'. intros x r _. now apply one_row.
  - rewrite many_spec by auto.
    assert (E : forall rs, Forall2 (fun x r => exists bs, Forall2 blk (combine fs x) bs /\ r = concat bs) X rs <-> Forall2 (row_of fa pa) X rs).
    { intro rs. apply Forall2_iff'. intros x r I. apply (blocks_iff fs fa pa n); auto. }
    assert (W : forall rs, Forall2 (row_of fa pa) X rs -> np_reshape (concat rs) (zlen X) = Ok rs).
    { intros rs F. rewrite (Forall2_zlen _ _ _ F).
      destruct X as [|x0 X']; [easy|]. inversion F as [|? r0 ? rs' H0 F']; subst.
      apply (reshape_blocks (r0 :: rs') (zlen r0)); [easy|]. intros l Hl.
      apply In_Znth in Hl as (i & B & Hi). destruct (Znth_ex (x0 :: X') i) as [x Hx]; [rewrite (Forall2_zlen _ _ _ F); lia|].
      pose proof (Forall2_Znth _ _ _ _ _ _ F Hx Hi) as Hr. apply Znth_In in Hx.
      apply (row_width fa pa (x0 :: X') x x0 l r0 n); auto; [now left|apply LX; now left]. }
    split.
    + intros (rs & F & H). apply E in F. rewrite (W _ F) in H. injection H as <-. exact F.
    + intro F. exists rows. split; [now apply E|auto].
Qed.

(** Without the condition on the sizes: the output holds the values of all the rows, in order, cut
    into rows of one width. *)
Theorem features_any_sizes fa pa n l t X rows : 0 <= n -> fa = FMany l \/ (exists g, fa = FOne (Fun g)) ->
  features_fit is_array fa pa n = Ok t ->
  X <> [] -> (forall x, In x X -> zlen x = n) -> no_identity fa ->
  (features_transform reduce t n n X = Ok rows <->
   zlen rows = zlen X /\ (forall r r', In r rows -> In r' rows -> zlen r = zlen r') /\
   exists rs, Forall2 (row_of fa pa) X rs /\ concat rows = concat rs).
Proof.
  intros Hn K FT NE LX NI. unfold features_transform. rewrite Z.eqb_refl. cbn [negb].
  pose proof (proj2 (features_fit_spec fa pa n Hn) _ FT) as S.
  destruct t as [s p|fs]; [destruct S as [-> _]; destruct K as [?|(g & ?)]; easy|].
  rewrite many_spec by auto.
  assert (E : forall rs, Forall2 (fun x r => exists bs, Forall2 blk (combine fs x) bs /\ r = concat bs) X rs <-> Forall2 (row_of fa pa) X rs).
  { intro rs. apply Forall2_iff'. intros x r I. apply (blocks_iff fs fa pa n); auto. }
  assert (PX : 0 < zlen X) by (destruct X; [easy|rewrite zlen_cons; pose proof (zlen_nonneg X); lia]).
  assert (RS : forall flat, np_reshape flat (zlen X) = Ok rows <->
    zlen rows = zlen X /\ (forall r r', In r rows -> In r' rows -> zlen r = zlen r') /\ concat rows = flat).
  { intro flat. split.
    - unfold np_reshape. destruct (Z.eqb_spec (zlen flat mod zlen X) 0) as [M|]; [|easy]. cbn [negb]. intro H. injection H as <-.
      set (w := zlen flat / zlen X).
      assert (FL : zlen flat = zlen X * w) by (unfold w; apply Z.div_exact in M; lia).
      assert (Hw : 0 <= w) by (pose proof (zlen_nonneg flat); nia).
      assert (SP : forall i, 0 <= i < zlen X -> zlen (py_sub (Some (i * w)) (Some ((i + 1) * w)) flat) = w /\
        forall k, 0 <= k < w -> Znth (py_sub (Some (i * w)) (Some ((i + 1) * w)) flat) k = Znth flat (i * w + k)).
      { intros i Hi. destruct (py_sub_spec flat (i * w) ((i + 1) * w)) as [A B]; [nia|nia|]. split; [lia|]. intros k Hk. apply B; lia. }
      assert (U : forall r, In r (tabZ (zlen X) (fun i => py_sub (Some (i * w)) (Some ((i + 1) * w)) flat)) -> zlen r = w).
      { intros r I. apply In_Znth in I as (i & B & Hi). rewrite zlen_tabZ in B by lia. rewrite Znth_tabZ in Hi by lia.
        injection Hi as <-. now apply SP. }
      split; [rewrite zlen_tabZ; lia|]. split; [intros r r' I I'; rewrite (U _ I), (U _ I'); auto|].
      apply Znth_ext; [rewrite (zlen_concat_uniform _ w U), zlen_tabZ; lia|].
      intros k Hk. rewrite (zlen_concat_uniform _ w U), zlen_tabZ in Hk by lia.
      assert (w <> 0) by nia. pose proof (Z.div_mod k w ltac:(lia)) as DM. pose proof (Z.mod_pos_bound k w ltac:(lia)).
      assert (0 <= k / w < zlen X) by (split; [apply Z.div_pos; lia|apply Z.div_lt_upper_bound; nia]).
      replace k with ((k / w) * w + k mod w) by lia.
      erewrite (Znth_concat_uniform _ w (k / w) (k mod w) _ U); [|apply Znth_tabZ; assumption|lia].
      now apply SP.
    - intros (L & U & <-). rewrite <- L. destruct rows as [|r0 rows]; [unfold zlen in L; simpl in L; unfold zlen in PX; lia|].
      apply (reshape_blocks _ (zlen r0)); [easy|]. intros l' I. apply U; [auto|now left]. }
  split.
  - intros (rs & F & H). apply RS in H as (A & B & C). repeat split; auto. exists rs. split; auto. now apply E.
  - intros (A & B & rs & F & C). exists rs. split; [now apply E|]. now apply RS.
Qed.

(** "identity" in a list of functions never works. *)
Theorem identity_in_list l pa n t X : 0 <= n -> features_fit is_array (FMany l) pa n = Ok t ->
  X <> [] -> (forall x, In x X -> zlen x = n) -> In (Some (Name "identity")) l ->
  forall rows, features_transform reduce t n n X <> Ok rows.
Proof.
  intros Hn FT NE LX I rows H. unfold features_transform in H. rewrite Z.eqb_refl in H. cbn [negb] in H.
  pose proof (proj2 (features_fit_spec _ pa n Hn) _ FT) as S. destruct t as [s p|fs]; [now destruct S|].
  apply many_spec in H as (rs & F & _); auto. destruct X as [|x X]; [easy|].
  inversion F as [|? r ? rs' (bs & Fb & _) _]; subst. destruct S as (L & S & _).
  pose proof (proj1 (proj1 (features_fit_spec _ pa n Hn)) (ex_intro _ _ FT)) as (LL & _).
  apply In_Znth in I as (j & B & Hj). destruct (Znth_ex fs j) as [[f p] Hf]; [lia|].
  destruct (Znth_ex x j) as [xj Hx]; [rewrite (LX x) by (now left); lia|].
  pose proof (Znth_combine _ _ _ _ _ Hf Hx) as Hc. destruct (Znth_ex bs j) as [b Hb].
  { rewrite <- (Forall2_zlen _ _ _ Fb). eapply Znth_Some_lt; eauto. }
  pose proof (Forall2_Znth _ _ _ _ _ _ Fb Hc Hb) as K. specialize (S _ _ _ Hf). cbn [chosen] in S. rewrite Hj in S.
  destruct f as [f|]; [|easy]. injection S as <- _. unfold blk in K. cbn in K. destruct K as (o & ? & _). easy.
Qed.

(** It is a TypeError if it comes first. *)
Theorem identity_first l pa n t X : 0 <= n -> features_fit is_array (FMany (Some (Name "identity") :: l)) pa n = Ok t ->
  X <> [] -> (forall x, In x X -> zlen x = n) -> features_transform reduce t n n X = Err TypeError.
Proof.
  intros Hn FT NE LX. unfold features_transform. rewrite Z.eqb_refl. cbn [negb].
  pose proof (proj2 (features_fit_spec _ pa n Hn) _ FT) as S. destruct t as [s p|fs]; [now destruct S|].
  pose proof (proj1 (proj1 (features_fit_spec _ pa n Hn)) (ex_intro _ _ FT)) as (LL & _).
  destruct X as [|x X]; [easy|]. destruct S as (L & S & _). rewrite zlen_cons in LL. pose proof (zlen_nonneg l) as Hl.
  destruct fs as [|[f p] fs]; [change (zlen (@nil (option (func V) * params))) with 0 in L; lia|].
  destruct x as [|xj x]; [specialize (LX [] (or_introl eq_refl)); change (zlen (@nil (list Qc))) with 0 in LX; lia|].
  specialize (S 0 f p eq_refl). cbn [chosen] in S. change (Znth (Some (Name "identity") :: l) 0) with (Some (Some (@Name V "identity"))) in S.
  destruct f as [f|]; [|easy]. injection S as <- _. reflexivity.
Qed.

(** Another number of channels than at fit is refused. *)
Theorem other_channels t n m X : m <> n -> features_transform reduce t n m X = Err ValueError.
Proof. intro H. unfold features_transform. apply Z.eqb_neq in H. now rewrite H. Qed.
End Features.

(** ** Cases *)
Definition q (z : Z) : Qc := Q2Qc (inject_Z z).
Definition noarr (_ : unit) := false.
Definition red (s : string) (p : list (string * unit)) (x : list Qc) : res Qc :=
  if String.eqb s "max" then match x with [] => Err ValueError | a :: t => Ok (fold_right (fun a b => if Qcleb a b then b else a) a t) end
  else Ok 0%Qc.
Definition ends : func unit := Fun (fun _ x => match x with [] => Err IndexError | a :: t => Ok (Vc [a; last t a]) end).
Definition X0 : list (list (list Qc)) :=
  [[[q 1; q 2; q 3]; [q 4; q 5; q 6]; [q 7; q 8; q 9]]; [[q 3; q 0; q 1]; [q 0; q 0; q 0]; [q 5; q 4; q 3]]].
Example features_example :
  exists t, features_fit noarr (FMany [Some ends; None; Some (Name "max")]) PNone 3 = Ok t /\
    features_transform red t 3 3 X0 = Ok [[q 1; q 3; q 9]; [q 3; q 1; q 5]].
Proof. eexists. split; reflexivity. Qed.
Example features_sizes : same_sizes red (FMany [Some ends; None; Some (Name "max")]) PNone X0.
Proof.
  intros x x' j y y' b b' I I' Hx Hx'. unfold channel_block.
  assert (0 <= j < 3).
  { pose proof (Znth_Some_lt _ _ _ Hx) as B. destruct I as [<-|[<-|[]]]; exact B. }
  assert (j = 0 \/ j = 1 \/ j = 2) as [->|[->| ->]] by lia; cbn.
  - intros [G|(a & G & _)] [G'|(a' & G' & _)]; destruct y, y'; try easy. injection G as <-. injection G' as <-. reflexivity.
  - now intros -> ->.
  - now intros (a & _ & ->) (a' & _ & ->).
Qed.
(** A function of which the number of values differs: the second sample's row starts with a value of
    the first. *)
Definition positives : func unit := Fun (fun _ x => Ok (Vc (filter (fun a => Qcltb 0%Qc a) x))).
Example ragged_misaligned :
  exists t, features_fit noarr (FOne positives) PNone 1 = Ok t /\
    features_transform red t 1 1 [[[q 1; q 2; q 3]]; [[q 4; q 0; q 0]]] = Ok [[q 1; q 2]; [q 3; q 4]].
Proof. eexists. split; reflexivity. Qed.
(** fit refuses: parameters None for a function given by name, and weights=None. *)
Example none_params : features_fit noarr (FMany [Some (Name "max")]) (PMany [None]) 1 = Err AttributeError.
Proof. reflexivity. Qed.
Example none_weights : features_fit noarr (FOne (Name "average")) (PDict [("weights", tt)]%string) 1 = Err TypeError.
Proof. reflexivity. Qed.

Print Assumptions features_fit_spec.
Print Assumptions features_spec.
Print Assumptions features_any_sizes.
