(** Lemmas about pipelines. *)
From Coq Require Import String Ascii.
From Verif Require Import Np NpFacts MParModel PipeModel PipeSpec.
Open Scope Z_scope.
Open Scope string_scope.

(** ** Splitting at the first '__' *)
Lemma partition_some s a b : partition s = (a, Some b) <-> before_dunder s a b.
Proof.
  revert a b. induction s as [|c r IH]; intros a b.
  - cbn. split; [discriminate|]. intros [E _]. destruct a; discriminate.
  - destruct r as [|c' r'].
    + cbn. split; [discriminate|]. intros [E _]. destruct a as [|x [|x' a]]; cbn in E; try discriminate.
    + change (partition (String c (String c' r'))) with
        (if Ascii.eqb c "_" && Ascii.eqb c' "_" then ("", Some r')
         else let (a, b) := partition (String c' r') in (String c a, b)).
      destruct (Ascii.eqb c "_" && Ascii.eqb c' "_")%bool eqn:E.
      * apply andb_prop in E. destruct E as [E1 E2]. apply Ascii.eqb_eq in E1, E2. subst. split.
        -- intros H. injection H as <- <-. split; [reflexivity|]. cbn. intros. apply Nat.le_0_l.
        -- intros [E1 E2]. specialize (E2 "" r' eq_refl). destruct a; [|cbn in E2; now apply Nat.nle_succ_0 in E2].
           cbn in E1. injection E1 as ->. reflexivity.
      * destruct (partition (String c' r')) as [a0 b0] eqn:P. split.
        -- intros H. injection H as <- ->. destruct (proj1 (IH a0 b) eq_refl) as [P1 P2]. split; [cbn; now rewrite P1|].
           intros a' b' E'. destruct a' as [|x a'].
           ++ cbn in E'. injection E' as -> E'. rewrite E' in E. cbn in E. discriminate.
           ++ cbn in E'. injection E' as -> E'. cbn. apply le_n_S. now apply (P2 a' b').
        -- intros [E1 E2]. destruct a as [|x a].
           ++ cbn in E1. injection E1 as -> E1. rewrite E1 in E. cbn in E. discriminate.
           ++ cbn in E1. injection E1 as -> E1.
              assert (B : before_dunder (String c' r') a b).
              { split; [exact E1|]. intros a' b' E'. apply le_S_n. apply (E2 (String x a') b'). change (String x a' ++ "__" ++ b') with (String x (a' ++ "__" ++ b')). now rewrite <- E'. }
              apply IH in B. congruence.
Qed.
Lemma partition_none s : snd (partition s) = None <-> forall a b, s <> a ++ "__" ++ b.
Proof.
  split.
  - intros H a b E. 
    assert (G : forall n s a b, String.length s = n -> s = a ++ "__" ++ b -> snd (partition s) <> None); [|now apply (G _ s a b eq_refl E)].
    clear. induction n as [|n IH]; intros s a b L E; subst s.
    + destruct a; cbn in L; discriminate.
    + destruct a as [|c a]; [discriminate|].
      change (String c a ++ "__" ++ b) with (String c (a ++ "__" ++ b)) in *. destruct (a ++ "__" ++ b) as [|c' r'] eqn:Er; [destruct a; discriminate|].
      change (partition (String c (String c' r'))) with
        (if Ascii.eqb c "_" && Ascii.eqb c' "_" then ("", Some r')
         else let (a, b) := partition (String c' r') in (String c a, b)).
      destruct (Ascii.eqb c "_" && Ascii.eqb c' "_")%bool; [discriminate|].
      destruct (partition (String c' r')) as [a0 b0] eqn:P. cbn.
      assert (G : snd (partition (String c' r')) <> None) by (apply (IH _ a b); [cbn in *; congruence|congruence]).
      now rewrite P in G.
  - intros H. destruct (snd (partition s)) eqn:E; [|reflexivity]. exfalso. destruct (partition s) as [a b] eqn:P. cbn in E. subst b.
    apply partition_some in P. destruct P as [P _]. now apply (H a s0).
Qed.
Lemma before_dunder_fun s a b a' b' : before_dunder s a b -> before_dunder s a' b' -> a = a' /\ b = b'.
Proof. intros H H'. apply partition_some in H, H'. rewrite H in H'. injection H'. auto. Qed.

Lemma bind_iff {A B} (x : res A) (f : A -> res B) r : bind x f = Ok r <-> exists a, x = Ok a /\ f a = Ok r.
Proof. destruct x as [a|e]; cbn; [split; [eauto|intros [b [H1 H2]]; congruence]|split; [discriminate|intros [b [H _]]; discriminate]]. Qed.

Section Facts.
Context {O X Y V R : Type}.
Variable M : methods O X Y V R.
Notation steps_list := (list (string * step O)).

Lemma get_iff {A} o a (r : res A) v : get M o a r = Ok v <-> has M o a = true /\ r = Ok v.
Proof. unfold get. destruct (has M o a); split; intuition discriminate. Qed.

(** ** Estimators *)
Lemma estimators_iff (steps : steps_list) l : estimators steps l <-> l = objects steps.
Proof.
  split.
  - induction 1; cbn; try assumption; [reflexivity|]. now f_equal.
  - intros ->. induction steps as [|[n [| |o]] t IH]; cbn; constructor; exact IH.
Qed.
Lemma objects_app (a b : steps_list) : objects (a ++ b)%list = (objects a ++ objects b)%list.
Proof. apply flat_map_app. Qed.

(** ** Transforming *)
Lemma transform_resample_loop_iff l : forall x y x' y', transform_resample_loop M l x y = Ok (x', y') <-> passes M l x y x' y'.
Proof.
  induction l as [|o t IH]; intros x y x' y'; cbn [transform_resample_loop].
  - split; [intros H; injection H as <- <-; constructor|inversion 1; reflexivity].
  - split.
    + destruct (has M o TransformResample) eqn:E.
      * rewrite bind_iff. intros [[x1 y1] [H1 H2]]. apply IH in H2. econstructor; [|exact H2]. unfold moves. now rewrite E.
      * rewrite bind_iff. intros [x1 [H1 H2]]. apply IH in H2. apply get_iff in H1. econstructor; [|exact H2]. unfold moves. rewrite E. tauto.
    + intros H. inversion H as [|? ? ? ? x1 y1 ? ? Hm Hp]. subst. apply IH in Hp. unfold moves in Hm. destruct (has M o TransformResample).
      * rewrite bind_iff. now exists (x1, y1).
      * rewrite bind_iff. exists x1. destruct Hm as [H1 [H2 ->]]. split; [now apply get_iff|exact Hp].
Qed.
Lemma transform_loop_iff l : forall x x', transform_loop M l x = Ok x' <-> transforms M l x x'.
Proof.
  induction l as [|o t IH]; intros x x'; cbn [transform_loop].
  - split; [intros H; injection H as <-; constructor|inversion 1; reflexivity].
  - rewrite bind_iff. split.
    + intros [x1 [H1 H2]]. apply get_iff in H1. destruct H1. apply IH in H2. econstructor; eauto.
    + inversion 1. subst. exists x1. split; [now apply get_iff|now apply IH].
Qed.
Lemma passes_app a b x y x' y' : passes M (a ++ b)%list x y x' y' <-> exists x1 y1, passes M a x y x1 y1 /\ passes M b x1 y1 x' y'.
Proof.
  revert x y. induction a as [|o a IH]; intros x y; cbn [app].
  - split; [intros H; exists x, y; split; [constructor|exact H]|intros [x1 [y1 [H1 H2]]]; inversion H1; now subst].
  - split.
    + inversion 1. subst. apply IH in H7. destruct H7 as [x2 [y2 [H7 H8]]]. exists x2, y2. split; [econstructor; eauto|exact H8].
    + intros [x1 [y1 [H1 H2]]]. inversion H1. subst. econstructor; [eassumption|]. apply IH. eauto.
Qed.
Lemma transforms_app a b x x' : transforms M (a ++ b)%list x x' <-> exists x1, transforms M a x x1 /\ transforms M b x1 x'.
Proof.
  revert x. induction a as [|o a IH]; intros x; cbn [app].
  - split; [intros H; exists x; split; [constructor|exact H]|intros [x1 [H1 H2]]; inversion H1; now subst].
  - split.
    + inversion 1. subst. apply IH in H6. destruct H6 as [x2 [H7 H8]]. exists x2. split; [econstructor; eauto|exact H8].
    + intros [x1 [H1 H2]]. inversion H1. subst. econstructor; [eassumption|eassumption|]. apply IH. eauto.
Qed.
Lemma passes_fun l : forall x y x1 y1 x2 y2, passes M l x y x1 y1 -> passes M l x y x2 y2 -> x1 = x2 /\ y1 = y2.
Proof. intros. apply transform_resample_loop_iff in H, H0. rewrite H in H0. injection H0. auto. Qed.

(** ** The last step *)
Lemma final_app (a : steps_list) n s : final_estimator (a ++ [(n, s)])%list = Ok (match s with SObj o => Some o | _ => None end).
Proof. unfold final_estimator. rewrite rev_app_distr. now destruct s. Qed.
Lemma with_last_app (a : steps_list) n s o : with_last (a ++ [(n, s)])%list o = (a ++ [(n, SObj o)])%list.
Proof. unfold with_last. rewrite rev_app_distr. cbn. now rewrite removelast_last. Qed.
Lemma last_split (steps : steps_list) : steps = [] \/ exists a n s, steps = (a ++ [(n, s)])%list.
Proof. destruct steps as [|p t] using rev_ind; [now left|]. right. destruct p as [n s]. now exists t, n, s. Qed.

(** ** Validation *)
Lemma names_unique_iff l : names_unique l = true <-> NoDup l.
Proof.
  induction l as [|n t IH]; cbn; [split; [constructor|reflexivity]|]. rewrite andb_true_iff, IH, negb_true_iff. split.
  - intros [H N]. constructor; [|exact N]. intros I. assert (E : existsb (String.eqb n) t = true) by (apply existsb_exists; exists n; split; [exact I|apply String.eqb_refl]). congruence.
  - inversion 1. subst. split; [|assumption]. apply Bool.not_true_is_false. intros E. apply existsb_exists in E. destruct E as [k [I E]]. apply String.eqb_eq in E. now subst.
Qed.
Lemma existsb_false {A} (f : A -> bool) l : existsb f l = false <-> forall x, In x l -> f x = false.
Proof.
  induction l as [|a t IH]; cbn; [tauto|]. rewrite orb_false_iff, IH. split.
  - intros [H1 H2] x [<-|I]; auto.
  - intros H. split; auto.
Qed.
Lemma validate_iff (steps : steps_list) : validate_steps M steps = Ok tt <-> well_formed M steps.
Proof.
  destruct (last_split steps) as [->|[a [n [s ->]]]].
  - cbn. split; [discriminate|]. intros [_ [_ [a [n [s [E _]]]]]]. destruct a; discriminate.
  - unfold validate_steps. rewrite rev_app_distr. cbn [rev app]. rewrite rev_involutive.
    destruct (names_unique (map fst (a ++ [(n, s)])%list)) eqn:E1; cbn [negb].
    2:{ split; [discriminate|]. intros [H _]. apply names_unique_iff in H. congruence. }
    apply names_unique_iff in E1.
    destruct (existsb (fun n => existsb (String.eqb n) ["steps"; "memory"; "verbose"]) (map fst (a ++ [(n, s)])%list)) eqn:E2.
    { split; [discriminate|]. intros [_ [H _]]. exfalso. apply existsb_exists in E2. destruct E2 as [k [I E]]. apply in_map_iff in I. destruct I as [[k' s'] [<- I]].
      apply H in I. cbn in E. destruct (String.eqb_spec k' "steps"); [tauto|]. destruct (String.eqb_spec k' "memory"); [tauto|]. destruct (String.eqb_spec k' "verbose"); [tauto|discriminate]. }
    rewrite existsb_false in E2.
    destruct (existsb has_dunder (map fst (a ++ [(n, s)])%list)) eqn:E3.
    { split; [discriminate|]. intros [_ [H _]]. exfalso. apply existsb_exists in E3. destruct E3 as [k [I E]]. apply in_map_iff in I. destruct I as [[k' s'] [<- I]].
      apply H in I. destruct I as [_ [_ [_ I]]]. apply partition_none in I. cbn in E. unfold has_dunder in E. now rewrite I in E. }
    rewrite existsb_false in E3.
    assert (HN : forall k t, In (k, t) (a ++ [(n, s)])%list -> k <> "steps" /\ k <> "memory" /\ k <> "verbose" /\ forall u v, k <> u ++ "__" ++ v).
    { intros k t I. apply (in_map fst) in I. cbn in I. pose proof (E2 _ I) as F. pose proof (E3 _ I) as G. cbn in F.
      destruct (String.eqb_spec k "steps"); [discriminate|]. destruct (String.eqb_spec k "memory"); [discriminate|]. destruct (String.eqb_spec k "verbose"); [discriminate|].
      repeat (split; [assumption|]). apply partition_none. unfold has_dunder in G. now destruct (snd (partition k)). }
    destruct (existsb _ a) eqn:E4.
    { split; [discriminate|]. intros [_ [_ [a' [n' [s' [E [H _]]]]]]]. exfalso. apply app_inj_tail in E. destruct E as [<- _].
      apply existsb_exists in E4. destruct E4 as [[k t] [I E]]. cbn in E. destruct t as [| |o]; try discriminate. apply H in I.
      destruct I as [[I|I] J]; rewrite I, J in E; cbn in E; [discriminate|]. rewrite orb_true_r in E. discriminate. }
    rewrite existsb_false in E4.
    split.
    + intros H. split; [exact E1|]. split; [exact HN|]. exists a, n, s. split; [reflexivity|]. split.
      * intros k o I. apply E4 in I. cbn in I. apply orb_false_iff in I. destruct I as [I J]. apply negb_false_iff in I, J. apply orb_true_iff in I. tauto.
      * intros o ->. destruct (has M o Fit); [reflexivity|discriminate].
    + intros [_ [_ [a' [n' [s' [E [_ H]]]]]]]. apply app_inj_tail in E. destruct E as [<- E]. injection E as <- <-.
      destruct s as [| |o]; try reflexivity. now rewrite (H o eq_refl).
Qed.

(** ** Keyword arguments *)
Fixpoint addr (n : string) (ps : list (string * V)) : list (string * V) :=
  match ps with
  | [] => []
  | (k, v) :: t => match partition k with
                   | (a, Some b) => if String.eqb n a then (b, v) :: addr n t else addr n t
                   | (_, None) => addr n t
                   end
  end.
Lemma addressed_iff n ps l : addressed n ps l <-> l = addr n ps.
Proof.
  split.
  - induction 1 as [|k b v t l B H IH|k v t l B H IH]; [reflexivity| |]; cbn [addr].
    + apply partition_some in B. rewrite B, String.eqb_refl. now f_equal.
    + destruct (partition k) as [a [b|]] eqn:P; [|exact IH]. destruct (String.eqb_spec n a) as [->|]; [|exact IH].
      exfalso. apply (B b). now apply partition_some.
  - intros ->. induction ps as [|[k v] t IH]; cbn [addr]; [constructor|].
    destruct (partition k) as [a [b|]] eqn:P.
    + destruct (String.eqb_spec n a) as [->|Hn]; [apply addr_yes; [now apply partition_some|exact IH]|].
      apply addr_no; [|exact IH]. intros b' B. apply partition_some in B. congruence.
    + apply addr_no; [|exact IH]. intros b' B. apply partition_some in B. congruence.
Qed.
Lemma lookup_set_field {A} k k' (v : A) d : lookup k (set_field k' v d) =
  if String.eqb k k' then match lookup k d with Some _ => Some v | None => None end else lookup k d.
Proof.
  unfold set_field. induction d as [|[a w] t IH]; [now destruct (String.eqb k k')|]. cbn [map fst lookup].
  destruct (String.eqb_spec k' a) as [->|Ha]; cbn [lookup]; rewrite IH.
  - destruct (String.eqb_spec k a); reflexivity.
  - destruct (String.eqb_spec k a) as [->|]; [|reflexivity]. destruct (String.eqb_spec a k'); [congruence|reflexivity].
Qed.
Lemma split_params_ok (ps : list (string * V)) : forall d d', split_params ps d = Ok d' ->
  (forall k v, In (k, v) ps -> exists n b, partition k = (n, Some b) /\ lookup n d <> None) /\
  forall n, lookup n d' = match lookup n d with Some p => Some (p ++ addr n ps)%list | None => None end.
Proof.
  induction ps as [|[k v] t IH]; intros d d'; cbn [split_params addr].
  - intros H. injection H as <-. split; [easy|]. intros n. destruct (lookup n d); [now rewrite app_nil_r|reflexivity].
  - destruct (partition k) as [a [b|]] eqn:P; [|discriminate]. destruct (lookup a d) as [p|] eqn:L; [|discriminate].
    intros H. apply IH in H. destruct H as [H1 H2]. split.
    + intros k' v' [E|I].
      * injection E as <- <-. exists a, b. split; [exact P|congruence].
      * destruct (H1 k' v' I) as [n [b' [P' L']]]. exists n, b'. split; [exact P'|]. rewrite lookup_set_field in L'.
        destruct (String.eqb_spec n a); [congruence|exact L'].
    + intros n. rewrite H2, lookup_set_field. destruct (String.eqb_spec n a) as [->|]; [|reflexivity].
      rewrite L. now rewrite <- app_assoc.
Qed.
Lemma split_params_ex (ps : list (string * V)) : forall d, (forall k v, In (k, v) ps -> exists n b, partition k = (n, Some b) /\ lookup n d <> None) ->
  exists d', split_params ps d = Ok d'.
Proof.
  induction ps as [|[k v] t IH]; intros d H; [now exists d|]. cbn [split_params].
  destruct (H k v (or_introl eq_refl)) as [n [b [-> L]]]. destruct (lookup n d) eqn:E; [|easy].
  apply IH. intros k' v' I. destruct (H k' v' (or_intror I)) as [n' [b' [P L']]]. exists n', b'. split; [exact P|].
  rewrite lookup_set_field. destruct (String.eqb n' n); [|exact L']. destruct (lookup n' d); [discriminate|easy].
Qed.
Lemma lookup_empty (steps : steps_list) n : NoDup (map fst steps) ->
  lookup n (empty_params (V := V) steps) = (if existsb (fun p => String.eqb n (fst p) && match snd p with SNone => false | _ => true end) steps then Some [] else None).
Proof.
  induction steps as [|[k s] t IH]; [reflexivity|]. inversion 1. subst. cbn.
  destruct s; cbn; rewrite ?andb_false_r, ?andb_true_r; cbn; [now apply IH| |];
  (destruct (String.eqb n k); [reflexivity|now apply IH]).
Qed.
Lemma lookup_empty_some (steps : steps_list) n s : NoDup (map fst steps) -> In (n, s) steps -> s <> SNone -> lookup n (empty_params (V := V) steps) = Some [].
Proof.
  intros N I Hs. rewrite lookup_empty by exact N. rewrite (proj2 (existsb_exists _ _)); [reflexivity|].
  exists (n, s). split; [exact I|]. cbn. rewrite String.eqb_refl. now destruct s.
Qed.
Lemma split_iff (steps : steps_list) (ps : list (string * V)) : NoDup (map fst steps) ->
  ((exists d, split_params ps (empty_params steps) = Ok d) <-> params_ok steps ps).
Proof.
  intros N. split.
  - intros [d H]. apply split_params_ok in H. destruct H as [H _]. intros k v I. destruct (H k v I) as [n [b [P L]]].
    rewrite lookup_empty in L by exact N. destruct (existsb _ steps) eqn:E; [|easy]. apply existsb_exists in E. destruct E as [[n' s] [I' E]].
    cbn in E. apply andb_prop in E. destruct E as [E1 E2]. apply String.eqb_eq in E1. subst n'. exists n, s, b. split; [now apply partition_some|]. split; [exact I'|].
    intros ->. discriminate.
  - intros H. apply split_params_ex. intros k v I. destruct (H k v I) as [n [s [b [B [I' Hs]]]]]. exists n, b. split; [now apply partition_some|].
    rewrite (lookup_empty_some steps n s N I' Hs). discriminate.
Qed.
Lemma params_of_ok (steps : steps_list) (ps : list (string * V)) d n s : NoDup (map fst steps) -> split_params ps (empty_params steps) = Ok d ->
  In (n, s) steps -> s <> SNone -> PipeModel.params_of n d = Ok (addr n ps).
Proof.
  intros N H I Hs. apply split_params_ok in H. destruct H as [_ H]. unfold PipeModel.params_of. rewrite H.
  rewrite (lookup_empty_some steps n s N I Hs). reflexivity.
Qed.

(** ** Fitting *)
Hypothesis L : lawful M.

Lemma fit_transform_one_iff o x y p x' o' : (has M o Fit = true \/ has M o FitTransform = true) -> has M o Transform = true ->
  (fit_transform_one M o x y p = Ok (x', o') <-> fit M o x y p = Ok o' /\ transform M o' x = Ok x').
Proof.
  intros HF HT. unfold fit_transform_one. destruct (has M o FitTransform) eqn:E.
  - rewrite (law_ft M L) by exact E. rewrite bind_iff. split.
    + intros [[o1 x1] [H1 H2]]. injection H2 as <- <-. apply bind_iff in H1. destruct H1 as [o2 [H1 H2]]. apply bind_iff in H2. destruct H2 as [x2 [H2 H3]].
      injection H3 as <- <-. auto.
    + intros [H1 H2]. exists (o', x'). split; [|reflexivity]. apply bind_iff. exists o'. split; [exact H1|]. apply bind_iff. exists x'. auto.
  - destruct HF as [HF|HF]; [|discriminate]. rewrite bind_iff. split.
    + intros [o1 [H1 H2]]. apply get_iff in H1. apply bind_iff in H2. destruct H2 as [x1 [H2 H3]]. apply get_iff in H2. injection H3 as <- <-. tauto.
    + intros [H1 H2]. exists o'. split; [now apply get_iff|]. apply bind_iff. exists x'. split; [|reflexivity]. apply get_iff. split; [|exact H2].
      now rewrite (law_fit_has M L _ _ _ _ _ _ H1).
Qed.
Lemma fit_transform_resample_one_iff o x y p x' y' o' : (has M o Fit = true \/ has M o FitTransform = true) -> has M o TransformResample = true ->
  (fit_transform_resample_one M o x y p = Ok (x', y', o') <-> fit M o x y p = Ok o' /\ transform_resample M o' x y = Ok (x', y')).
Proof.
  intros HF HT. assert (HF' : has M o Fit = true) by (destruct HF as [|HF]; [assumption|now apply (law_has_ft M L)]).
  unfold fit_transform_resample_one. destruct (has M o FitTransformResample) eqn:E.
  - rewrite (law_ftr M L) by exact E. rewrite bind_iff. split.
    + intros [[o1 r1] [H1 H2]]. injection H2 as -> <-. apply bind_iff in H1. destruct H1 as [o2 [H1 H2]]. apply bind_iff in H2. destruct H2 as [r2 [H2 H3]].
      injection H3 as <- <-. auto.
    + intros [H1 H2]. exists (o', (x', y')). split; [|reflexivity]. apply bind_iff. exists o'. split; [exact H1|]. apply bind_iff. exists (x', y'). auto.
  - rewrite bind_iff. split.
    + intros [o1 [H1 H2]]. apply get_iff in H1. apply bind_iff in H2. destruct H2 as [r1 [H2 H3]]. apply get_iff in H2. injection H3 as -> <-. tauto.
    + intros [H1 H2]. exists o'. split; [now apply get_iff|]. apply bind_iff. exists (x', y'). split; [|reflexivity]. apply get_iff. split; [|exact H2].
      now rewrite (law_fit_has M L _ _ _ _ _ _ H1).
Qed.

(** One step of the loop. *)
Definition loop_step (o : O) (x : X) (y : option Y) (rp : res (list (string * V))) : res (X * option Y * O) :=
  if (has M o Resample || has M o FitTransformResample)%bool then
    match y with
    | None => do p <- rp; do r <- fit_transform_one M o x y p; Ok (fst r, y, snd r)
    | Some _ => do p <- rp; fit_transform_resample_one M o x y p
    end
  else do p <- rp; do r <- fit_transform_one M o x y p; Ok (fst r, y, snd r).
Lemma loop_step_iff o x y p x' y' o' : (has M o Fit = true \/ has M o FitTransform = true) -> has M o Transform = true ->
  (loop_step o x y (Ok p) = Ok (x', y', o') <-> fit M o x y p = Ok o' /\ fit_moves M o' x y x' y').
Proof.
  intros HF HT. unfold loop_step. rewrite <- (law_kind M L). cbn [bind].
  assert (P : (do r <- fit_transform_one M o x y p; Ok (fst r, y, snd r)) = Ok (x', y', o') <-> fit M o x y p = Ok o' /\ transform M o' x = Ok x' /\ y' = y).
  { rewrite bind_iff. split.
    - intros [[x1 o1] [H1 H2]]. injection H2 as <- <- <-. apply fit_transform_one_iff in H1; tauto.
    - intros [H1 [H2 ->]]. exists (x', o'). split; [|reflexivity]. apply fit_transform_one_iff; auto. }
  assert (K : fit M o x y p = Ok o' -> has M o' TransformResample = has M o TransformResample /\ has M o' Transform = true).
  { intros H. split; [apply (law_fit_has M L _ _ _ _ _ _ H)|]. now rewrite (law_fit_has M L _ _ _ _ _ _ H). }
  destruct (has M o TransformResample) eqn:E.
  - destruct y as [y|].
    + rewrite fit_transform_resample_one_iff by assumption. unfold fit_moves, moves. split; intros [H1 H2]; (split; [exact H1|]); destruct (K H1) as [K1 _]; rewrite K1 in *; exact H2.
    + rewrite P. unfold fit_moves. tauto.
  - rewrite P. unfold fit_moves. destruct y as [y|]; [|tauto]. unfold moves. split.
    + intros [H1 [H2 ->]]. split; [exact H1|]. destruct (K H1) as [-> ->]. auto.
    + intros [H1 H2]. split; [exact H1|]. destruct (K H1) as [K1 K2]. rewrite K1 in H2. tauto.
Qed.

Lemma fit_loop_iff caching (steps : steps_list) ps d : NoDup (map fst steps) -> split_params ps (empty_params steps) = Ok d ->
  forall l x y l' x' y', incl l steps ->
  (forall k o, In (k, SObj o) l -> (has M o Fit = true \/ has M o FitTransform = true) /\ has M o Transform = true) ->
  (fit_loop M caching d l x y = Ok (l', (x', y')) <-> learns M caching ps l x y l' x' y').
Proof.
  intros N Hd. induction l as [|[n s] t IH]; intros x y l' x' y' Hi Hh.
  - cbn. split; [intros H; injection H as <- <- <-; constructor|inversion 1; reflexivity].
  - assert (IH' : forall x y l' x' y', fit_loop M caching d t x y = Ok (l', (x', y')) <-> learns M caching ps t x y l' x' y').
    { intros. apply IH; [intros p I; apply Hi; now right|intros k o I; apply (Hh k o); now right]. }
    destruct s as [| |o]; cbn [fit_loop].
    + rewrite bind_iff. split.
      * intros [[l1 [x1 y1]] [H1 H2]]. injection H2 as <- <- <-. apply IH' in H1. constructor; [discriminate|exact H1].
      * inversion 1; subst. exists (t', (x', y')). split; [now apply IH'|reflexivity].
    + rewrite bind_iff. split.
      * intros [[l1 [x1 y1]] [H1 H2]]. injection H2 as <- <- <-. apply IH' in H1. constructor; [discriminate|exact H1].
      * inversion 1; subst. exists (t', (x', y')). split; [now apply IH'|reflexivity].
    + destruct (Hh n o (or_introl eq_refl)) as [HF HT].
      set (c := if caching then clone M o else o).
      assert (HF' : has M c Fit = true \/ has M c FitTransform = true) by (unfold c; destruct caching; rewrite ?(law_clone_has M L); exact HF).
      assert (HT' : has M c Transform = true) by (unfold c; destruct caching; rewrite ?(law_clone_has M L); exact HT).
      assert (Hp : PipeModel.params_of n d = Ok (addr n ps)) by (apply (params_of_ok steps ps d n (SObj o)); auto; [apply Hi; now left|discriminate]).
      rewrite Hp.
      transitivity ((do r <- loop_step c x y (Ok (addr n ps)); 
              let '(x', y', fitted) := r in do rest <- fit_loop M caching d t x' y'; Ok ((n, SObj fitted) :: fst rest, snd rest)) = Ok (l', (x', y'))); [reflexivity|].
      rewrite bind_iff. split.
      * intros [[[x1 y1] o1] [H1 H2]]. apply bind_iff in H2. destruct H2 as [[l2 [x2 y2]] [H2 H3]]. injection H3 as <- <- <-.
        apply loop_step_iff in H1; [|assumption|assumption]. destruct H1 as [H1 H1']. apply IH' in H2. econstructor; [now apply addressed_iff|exact H1|exact H1'|exact H2].
      * inversion 1; subst; [exfalso; match goal with H : forall _, _ <> _ |- _ => now apply (H o) end|].
        match goal with H : addressed _ _ _ |- _ => apply addressed_iff in H; subst end.
        exists (x1, y1, o'). split; [apply loop_step_iff; auto|]. apply bind_iff. exists (t', (x', y')). split; [now apply IH'|reflexivity].
Qed.
End Facts.
