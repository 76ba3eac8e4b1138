(** Lemmas for the parameter interface of Mapper pipelines. *)
From Coq Require Import String Ascii.
From Verif Require Import Np NpFacts MParModel.
Open Scope Z_scope.
Open Scope string_scope.

(** ** Strings and dictionaries *)
Lemma partition_length s k r : partition s = (k, Some r) -> (slen k + 2 + slen r = slen s)%nat.
Proof.
  revert k. induction s as [|c s IH]; intros k; [discriminate|]. cbn [partition]. destruct s as [|c' s]; [discriminate|].
  destruct (Ascii.eqb c "_" && Ascii.eqb c' "_").
  - intros E. injection E as <- <-. cbn. lia.
  - destruct (partition (String c' s)) as [a b]. intros E. injection E as <- ->. specialize (IH a eq_refl). cbn [slen] in *. lia.
Qed.
Lemma partition_None s k : partition s = (k, None) -> s = k.
Proof.
  revert k. induction s as [|c s IH]; intros k; [cbn; congruence|]. cbn [partition]. destruct s as [|c' s]; [congruence|].
  destruct (Ascii.eqb c "_" && Ascii.eqb c' "_"); [discriminate|].
  destruct (partition (String c' s)) as [a b]. intros E. injection E as <- ->. f_equal. now apply IH.
Qed.

Lemma lookup_set_field {A} k k' (v : A) d :
  lookup k' (set_field k v d) = if String.eqb k' k then match lookup k d with Some _ => Some v | None => None end else lookup k' d.
Proof.
  unfold set_field. induction d as [|[k0 w] t IH]; cbn [map lookup fst]; [now destruct (String.eqb k' k)|].
  destruct (String.eqb_spec k k0) as [->|E0]; cbn [lookup].
  - destruct (String.eqb_spec k' k0) as [->|E1]; [reflexivity|]. rewrite IH. reflexivity.
  - rewrite IH. destruct (String.eqb_spec k' k0) as [->|E1]; [|reflexivity].
    destruct (String.eqb_spec k0 k) as [->|]; [contradiction|reflexivity].
Qed.
Lemma map_fst_set_field {A} k (v : A) d : map fst (set_field k v d) = map fst d.
Proof. unfold set_field. rewrite map_map. apply map_ext. intros [a b]. cbn. now destruct (String.eqb k a). Qed.
Lemma lookup_In {A} k (v : A) d : lookup k d = Some v -> In (k, v) d.
Proof. induction d as [|[k' w] t IH]; [discriminate|]. cbn. destruct (String.eqb_spec k k') as [->|]; [intros E; injection E as ->; now left|auto]. Qed.
Lemma In_lookup {A} k (v : A) d : NoDup (map fst d) -> In (k, v) d -> lookup k d = Some v.
Proof.
  induction d as [|[k' w] t IH]; [intros _ []|]. cbn [map fst lookup]. intros N [E|I]; inversion N; subst.
  - injection E as -> ->. now rewrite String.eqb_refl.
  - destruct (String.eqb_spec k k') as [->|]; [|auto]. exfalso. apply H1. apply in_map_iff. exists (k', v). auto.
Qed.
Lemma lookup_None {A} k (d : list (string * A)) : lookup k d = None <-> ~ In k (map fst d).
Proof.
  induction d as [|[k' w] t IH]; cbn; [tauto|]. destruct (String.eqb_spec k k') as [->|E]; [split; [discriminate|tauto]|].
  rewrite IH. split; [intros H [->|I]; auto|tauto].
Qed.
Lemma existsb_eqb k l : existsb (String.eqb k) l = true <-> In k l.
Proof. rewrite existsb_exists. split; [intros [x [I E]]; apply String.eqb_eq in E; now subst|intros I; exists k; split; [assumption|apply String.eqb_refl]]. Qed.

(** ** set_params *)
(** The last value given directly for the name [k]. *)
Definition direct_from (acc : option est) (k : string) (kw : list (string * est)) : option est :=
  fold_left (fun acc p => match partition (fst p) with
                          | (k', None) => if String.eqb k k' then Some (snd p) else acc
                          | (_, Some _) => acc end) kw acc.
Definition direct := direct_from None.
Definition default (e : est) (d : option est) : est := match d with Some v => v | None => e end.
Definition valid (attr : option string) (fs : list (string * est)) (kw : list (string * est)) : Prop :=
  forall key v, In (key, v) kw -> attr <> Some (fst (partition key)) /\ In (fst (partition key)) (map fst fs).

Lemma direct_from_default acc k kw : direct_from acc k kw = match direct k kw with Some v => Some v | None => acc end.
Proof.
  unfold direct. revert acc. induction kw as [|[key v] t IH]; intros acc; [reflexivity|]. cbn [direct_from fold_left].
  fold (direct_from (match partition key with (k', None) => if String.eqb k k' then Some v else acc | (_, Some _) => acc end) k t).
  fold (direct_from (match partition key with (k', None) => if String.eqb k k' then Some v else None | (_, Some _) => None end) k t).
  cbn [fst snd]. unfold direct_from in *. cbn [fst snd]. rewrite IH, (IH (match partition key with (k', None) => if String.eqb k k' then Some v else None | (_, Some _) => None end)).
  destruct (fold_left _ t None); [reflexivity|]. destruct (partition key) as [k' [s|]]; [reflexivity|]. now destruct (String.eqb k k').
Qed.
Lemma direct_cons k key v t : direct k ((key, v) :: t) =
  match direct k t with Some w => Some w | None =>
    match partition key with (k', None) => if String.eqb k k' then Some v else None | (_, Some _) => None end end.
Proof. unfold direct at 1. cbn [direct_from fold_left fst snd]. apply (direct_from_default _ k t). Qed.

Lemma set_direct_ok attr kw : forall fs r, NoDup (map fst fs) ->
  (set_direct attr kw fs = Ok r <-> valid attr fs kw /\ r = map (fun p => (fst p, default (snd p) (direct (fst p) kw))) fs).
Proof.
  induction kw as [|[key v] t IH]; intros fs r N.
  - cbn. split.
    + intros E. injection E as <-. split; [intros ? ? []|]. rewrite <- map_id at 1. apply map_ext. now intros [].
    + intros [_ ->]. f_equal. rewrite <- map_id at 1. apply map_ext. now intros [].
  - cbn [set_direct]. destruct (partition key) as [k sub] eqn:EP.
    destruct (match attr with Some a => String.eqb k a | None => false end) eqn:EA.
    { split; [discriminate|]. intros [V _]. destruct (V key v (or_introl eq_refl)) as [V1 _]. rewrite EP in V1. cbn in V1.
      destruct attr as [a|]; [|discriminate]. apply String.eqb_eq in EA. congruence. }
    destruct (lookup k fs) as [w|] eqn:EL.
    2:{ split; [discriminate|]. intros [V _]. destruct (V key v (or_introl eq_refl)) as [_ V2]. rewrite EP in V2. cbn in V2. now apply lookup_None in EL. }
    assert (Hk : In k (map fst fs)) by (apply lookup_In in EL; apply in_map_iff; now exists (k, w)).
    assert (HV : forall fs', map fst fs' = map fst fs -> (valid attr fs' t <-> valid attr fs ((key, v) :: t))).
    { intros fs' Hfs. unfold valid. rewrite Hfs. split.
      - intros V key' v' [E|I]; [|eauto]. injection E as <- <-. rewrite EP. cbn [fst]. split; [|assumption]. destruct attr as [a|]; [|discriminate].
        intros Ea. injection Ea as ->. now rewrite String.eqb_refl in EA.
      - intros V key' v' I. apply (V key' v'). now right. }
    destruct sub as [sub|].
    + rewrite IH by assumption. rewrite (HV fs eq_refl).
      assert (EM : map (fun p => (fst p, default (snd p) (direct (fst p) ((key, v) :: t)))) fs = map (fun p => (fst p, default (snd p) (direct (fst p) t))) fs).
      { apply map_ext. intros [a b]. rewrite direct_cons, EP. cbn [fst]. now destruct (direct a t). }
      rewrite EM. reflexivity.
    + rewrite IH by (now rewrite map_fst_set_field). rewrite (HV _ (map_fst_set_field k v fs)).
      assert (EM : map (fun p => (fst p, default (snd p) (direct (fst p) ((key, v) :: t)))) fs
                 = map (fun p => (fst p, default (snd p) (direct (fst p) t))) (set_field k v fs)).
      { unfold set_field. rewrite map_map. apply map_ext. intros [a b]. cbn [fst snd]. rewrite direct_cons, EP.
        rewrite String.eqb_sym. destruct (String.eqb_spec k a) as [->|E]; cbn [fst snd]; destruct (direct a t); reflexivity. }
      rewrite EM. reflexivity.
Qed.

Lemma In_groups kw : forall seen k, In k (groups seen kw) <-> ~ In k seen /\ nested k kw <> [].
Proof.
  induction kw as [|[key v] t IH]; intros seen k; [cbn; tauto|]. cbn [groups nested flat_map fst snd].
  fold (nested k t). destruct (partition key) as [k' [sub|]].
  - destruct (existsb (String.eqb k') seen) eqn:E.
    + apply existsb_eqb in E. rewrite IH. destruct (String.eqb_spec k k') as [->|]; cbn [app]; [tauto|reflexivity].
    + assert (Hs : ~ In k' seen) by (intros I; apply existsb_eqb in I; congruence).
      cbn [In]. rewrite IH. cbn [In]. destruct (String.eqb_spec k k') as [->|Hk]; cbn [app].
      * split; [intros _; split; [assumption|discriminate]|tauto].
      * split; [intros [->|[H1 H2]]; [easy|tauto]|]. intros [H1 H2]. right. split; [|assumption]. intros [->|I]; easy.
  - cbn [app]. apply IH.
Qed.
Lemma NoDup_groups kw : forall seen, NoDup (groups seen kw).
Proof.
  induction kw as [|[key v] t IH]; intros seen; [constructor|]. cbn [groups]. destruct (partition key) as [k' [sub|]]; [|apply IH].
  destruct (existsb (String.eqb k') seen); [apply IH|]. constructor; [|apply IH]. intros I. apply In_groups in I. apply (proj1 I). now left.
Qed.
Lemma groups_valid attr fs kw : valid attr fs kw -> forall k, In k (groups [] kw) -> In k (map fst fs).
Proof.
  intros V k I. apply In_groups in I. destruct I as [_ I]. unfold nested in I.
  induction kw as [|[key v] t IH]; [easy|]. cbn [flat_map fst snd] in I. pose proof (V key v (or_introl eq_refl)) as [_ Vk].
  destruct (partition key) as [k' [sub|]]; [|apply IH; [intros ? ? H; apply (V key0 v0); now right|exact I]].
  destruct (String.eqb_spec k k') as [->|]; [exact Vk|]. apply IH; [intros ? ? H; apply (V key0 v0); now right|exact I].
Qed.

Lemma set_groups_ok set kw ks : forall fs r, NoDup ks -> NoDup (map fst fs) -> (forall k, In k ks -> In k (map fst fs)) ->
  (set_groups set kw ks fs = Ok r <->
   Forall2 (fun p p' => fst p' = fst p /\
     if existsb (String.eqb (fst p)) ks then set (snd p) (nested (fst p) kw) = Ok (snd p') else snd p' = snd p) fs r).
Proof.
  induction ks as [|k ks IH]; intros fs r N1 N2 Hin.
  - cbn. split.
    + intros E. injection E as <-. clear. induction fs as [|p t IH]; constructor; auto.
    + intros F. f_equal. clear - F. induction F as [|[a b] [a' b'] t t' [H1 H2] F IH]; [reflexivity|]. cbn in *. subst. now f_equal.
  - cbn [set_groups]. inversion N1 as [|? ? Nk N1']; subst. assert (Hk : In k (map fst fs)) by (apply Hin; now left).
    destruct (lookup k fs) as [child|] eqn:EL; [|apply lookup_None in EL; contradiction].
    assert (Hex : forall a, a <> k -> existsb (String.eqb a) (k :: ks) = existsb (String.eqb a) ks).
    { intros a Ha. cbn. destruct (String.eqb_spec a k); [contradiction|reflexivity]. }
    assert (Hek : existsb (String.eqb k) ks = false).
    { destruct (existsb (String.eqb k) ks) eqn:E; [apply existsb_eqb in E; contradiction|reflexivity]. }
    destruct (set child (nested k kw)) as [child'|e] eqn:ES; cbn [bind].
    + rewrite IH; [|assumption|now rewrite map_fst_set_field|intros k' I; rewrite map_fst_set_field; apply Hin; now right].
      clear IH Hin. unfold set_field. revert r. induction fs as [|[a b] t IHt]; intros r; [destruct Hk|].
      cbn [map fst snd]. inversion N2 as [|? ? Na N2']; subst. cbn [lookup] in EL. cbn [map] in Hk.
      destruct (String.eqb_spec k a) as [<-|Hka].
      * injection EL as ->.
        assert (Et : map (fun p => if String.eqb k (fst p) then (fst p, child') else p) t = t).
        { rewrite <- map_id. apply map_ext_in. intros [a' b'] I. cbn. destruct (String.eqb_spec k a') as [->|]; [|reflexivity].
          exfalso. apply Na. apply in_map_iff. now exists (a', b'). }
        rewrite Et. 
        assert (Ft : forall r', Forall2 (fun p p' : string * est => fst p' = fst p /\ (if existsb (String.eqb (fst p)) ks then set (snd p) (nested (fst p) kw) = Ok (snd p') else snd p' = snd p)) t r' <->
                     Forall2 (fun p p' : string * est => fst p' = fst p /\ (if existsb (String.eqb (fst p)) (k :: ks) then set (snd p) (nested (fst p) kw) = Ok (snd p') else snd p' = snd p)) t r').
        { clear - Na Hex. induction t as [|[a b] t IH]; intros r'; [split; intros F; inversion F; constructor|].
          assert (Ha : a <> k) by (intros ->; apply Na; now left). specialize (IH (fun I => Na (or_intror I))).
          split; intros F; inversion F as [|? ? ? ? [F1 F2] F3]; subst; constructor; try (now apply IH); (split; [exact F1|]); cbn [fst snd] in *.
          - now rewrite Hex. - now rewrite Hex in F2. }
        split; intros F; inversion F as [|? [a' b'] ? ? [F1 F2] F3]; subst; (constructor; [|now apply Ft]); cbn [fst snd] in *; (split; [assumption|]).
        -- rewrite Hek in F2. subst b'. cbn [existsb]. rewrite String.eqb_refl. exact ES.
        -- cbn [existsb] in F2. rewrite String.eqb_refl in F2. cbn [orb] in F2. rewrite Hek. congruence.
      * destruct Hk as [Hk|Hk]; [cbn in Hk; congruence|]. specialize (IHt N2' Hk EL).
        split; intros F; inversion F as [|? [a' b'] ? ? [F1 F2] F3]; subst; (constructor; [|now apply IHt]); cbn [fst snd] in *; (split; [assumption|]).
        -- rewrite Hex by congruence. exact F2.
        -- now rewrite Hex in F2 by congruence.
    + split; [discriminate|]. intros F. exfalso. apply lookup_In in EL. clear - F EL ES.
      induction F as [|p p' t t' [F1 F2] F IH]; [destruct EL|]. destruct EL as [->|I]; [|auto].
      cbn in F2. rewrite String.eqb_refl in F2. cbn in F2. congruence.
Qed.

Lemma set_params_n_nil n e : set_params_n n e [] = Ok e.
Proof. destruct n; reflexivity. Qed.
Lemma set_params_n_ok n attr fs kw e' : NoDup (map fst fs) -> kw <> [] ->
  (set_params_n (S n) (Node attr fs) kw = Ok e' <->
   valid attr fs kw /\ exists fs', e' = Node attr fs' /\
     Forall2 (fun p p' => fst p' = fst p /\
       set_params_n n (default (snd p) (direct (fst p) kw)) (nested (fst p) kw) = Ok (snd p')) fs fs').
Proof.
  intros N Hkw. cbn [set_params_n]. destruct kw as [|kv kw0] eqn:EK; [easy|]. rewrite <- EK in *. clear Hkw.
  set (fs1 := map (fun p => (fst p, default (snd p) (direct (fst p) kw))) fs).
  assert (M1 : map fst fs1 = map fst fs) by (unfold fs1; rewrite map_map; reflexivity).
  assert (G : forall r, valid attr fs kw -> (set_groups (set_params_n n) kw (groups [] kw) fs1 = Ok r <->
     Forall2 (fun p p' => fst p' = fst p /\ set_params_n n (default (snd p) (direct (fst p) kw)) (nested (fst p) kw) = Ok (snd p')) fs r)).
  { intros r V. rewrite set_groups_ok; [|apply NoDup_groups|now rewrite M1|rewrite M1; now apply (groups_valid attr)].
    unfold fs1. clear M1 N V fs1 EK. revert r. induction fs as [|[a b] t IH]; intros r; [split; intros F; inversion F; constructor|].
    cbn [map fst snd]. split; intros F; inversion F as [|? [a' b'] ? ? [F1 F2] F3]; subst; (constructor; [|now apply IH]); cbn [fst snd] in *; (split; [assumption|]).
    - destruct (existsb (String.eqb a) (groups [] kw)) eqn:E; [exact F2|].
      assert (En : nested a kw = []).
      { destruct (nested a kw) eqn:En; [reflexivity|]. assert (I : In a (groups [] kw)) by (apply In_groups; rewrite En; split; [tauto|discriminate]). apply existsb_eqb in I. congruence. }
      rewrite En, set_params_n_nil. now subst.
    - destruct (existsb (String.eqb a) (groups [] kw)) eqn:E; [exact F2|].
      assert (En : nested a kw = []).
      { destruct (nested a kw) eqn:En; [reflexivity|]. assert (I : In a (groups [] kw)) by (apply In_groups; rewrite En; split; [tauto|discriminate]). apply existsb_eqb in I. congruence. }
      rewrite En, set_params_n_nil in F2. congruence. }
  split.
  - destruct (set_direct attr kw fs) as [f1|] eqn:ED; [|discriminate]. cbn [bind]. apply set_direct_ok in ED; [|assumption]. destruct ED as [V ->]. fold fs1.
    destruct (set_groups (set_params_n n) kw (groups [] kw) fs1) as [f2|] eqn:EG; [|discriminate]. cbn [bind]. intros E. injection E as <-.
    split; [assumption|]. exists f2. split; [reflexivity|]. now apply G.
  - intros [V [fs' [-> F]]]. assert (ED : set_direct attr kw fs = Ok fs1) by (apply set_direct_ok; auto). rewrite ED. cbn [bind].
    apply G in F; [|assumption]. now rewrite F.
Qed.

(** The depth bound does not matter. *)
Definition maxlen (kw : list (string * est)) : nat := list_max (map (fun p => slen (fst p)) kw).
Lemma list_max_in l x : In x l -> (x <= list_max l)%nat.
Proof. intros H. pose proof (proj1 (list_max_le l (list_max l)) (le_n _)) as F. rewrite Forall_forall in F. now apply F. Qed.
Lemma list_max_bound l b : (forall x, In x l -> (x <= b)%nat) -> (list_max l <= b)%nat.
Proof. intros H. apply list_max_le. now apply Forall_forall. Qed.
Lemma In_nested k kw sub v : In (sub, v) (nested k kw) <-> exists key, In (key, v) kw /\ partition key = (k, Some sub).
Proof.
  unfold nested. rewrite in_flat_map. split.
  - intros [[key w] [I H]]. cbn [fst snd] in H. destruct (partition key) as [k' [s|]] eqn:E; [|destruct H].
    destruct (String.eqb_spec k k') as [->|]; [|destruct H]. destruct H as [H|[]]. injection H as <- <-. now exists key.
  - intros [key [I E]]. exists (key, v). split; [assumption|]. cbn [fst snd]. rewrite E, String.eqb_refl. now left.
Qed.
Lemma nested_shorter k kw : nested k kw <> [] -> (maxlen (nested k kw) + 2 <= maxlen kw)%nat.
Proof.
  intros H. assert (G : forall sub v, In (sub, v) (nested k kw) -> (slen sub + 2 <= maxlen kw)%nat).
  { intros sub v I. apply In_nested in I. destruct I as [key [I E]]. apply partition_length in E.
    pose proof (list_max_in (map (fun p => slen (fst p)) kw) (slen key)) as B. specialize (B ltac:(apply in_map_iff; exists (key, v); auto)). unfold maxlen. lia. }
  destruct (nested k kw) as [|[s0 v0] t] eqn:E; [easy|].
  assert (maxlen ((s0, v0) :: t) <= maxlen kw - 2)%nat.
  { unfold maxlen at 1. apply list_max_bound. intros x I. apply in_map_iff in I. destruct I as [[sub v] [<- I]]. specialize (G sub v I). cbn. lia. }
  specialize (G s0 v0 (or_introl eq_refl)). lia.
Qed.
Lemma set_groups_ext f g kw ks : forall fs, (forall k child, In k ks -> f child (nested k kw) = g child (nested k kw)) ->
  set_groups f kw ks fs = set_groups g kw ks fs.
Proof.
  induction ks as [|k ks IH]; intros fs H; [reflexivity|]. cbn [set_groups]. destruct (lookup k fs) as [child|]; [|reflexivity].
  rewrite (H k child (or_introl eq_refl)). destruct (g child (nested k kw)); [|reflexivity]. cbn [bind]. apply IH. intros; apply H. now right.
Qed.
Lemma fuel n : forall m e kw, (maxlen kw < n)%nat -> (maxlen kw < m)%nat -> set_params_n n e kw = set_params_n m e kw.
Proof.
  induction n as [|n IH]; intros m e kw Hn Hm; [lia|]. destruct m as [|m]; [lia|]. cbn [set_params_n]. destruct kw as [|kv kw0] eqn:EK; [reflexivity|]. rewrite <- EK in *.
  destruct e as [| |attr fs]; try reflexivity. destruct (set_direct attr kw fs) as [f1|]; [|reflexivity]. cbn [bind].
  rewrite (set_groups_ext (set_params_n n) (set_params_n m)); [reflexivity|].
  intros k child I. apply In_groups in I. destruct I as [_ I]. apply nested_shorter in I. apply IH; lia.
Qed.
Lemma sk_set_params_nil e : sk_set_params e [] = Ok e.
Proof. apply set_params_n_nil. Qed.
Lemma nested_nil k : nested k [] = []. Proof. reflexivity. Qed.

Theorem sk_set_params_ok attr fs kw e' : NoDup (map fst fs) ->
  (sk_set_params (Node attr fs) kw = Ok e' <->
   valid attr fs kw /\ exists fs', e' = Node attr fs' /\
     Forall2 (fun p p' => fst p' = fst p /\
       sk_set_params (default (snd p) (direct (fst p) kw)) (nested (fst p) kw) = Ok (snd p')) fs fs').
Proof.
  intros N. destruct kw as [|kv kw0] eqn:EK.
  - rewrite sk_set_params_nil. split.
    + intros E. injection E as <-. split; [intros ? ? []|]. exists fs. split; [reflexivity|]. clear. induction fs as [|[a b] t IH]; constructor; [|assumption]. split; reflexivity.
    + intros [_ [fs' [-> F]]]. do 2 f_equal. clear - F. induction F as [|[a b] [a' b'] t t' [H1 H2] F IH]; [reflexivity|]. cbn in H1, H2. injection H2 as ->. subst. now f_equal.
  - rewrite <- EK. assert (Hkw : kw <> []) by (subst; discriminate). clear EK.
    unfold sk_set_params at 1, depth. rewrite set_params_n_ok by assumption. fold (maxlen kw).
    assert (E : forall p : string * est, set_params_n (maxlen kw) (default (snd p) (direct (fst p) kw)) (nested (fst p) kw) = sk_set_params (default (snd p) (direct (fst p) kw)) (nested (fst p) kw)).
    { intros p. unfold sk_set_params, depth. fold (maxlen (nested (fst p) kw)).
      destruct (nested (fst p) kw) as [|x l] eqn:En; [now rewrite !set_params_n_nil|].
      assert (Hne : nested (fst p) kw <> []) by (rewrite En; discriminate). rewrite <- En. apply nested_shorter in Hne. apply fuel; lia. }
    split; intros [V [fs' [-> F]]]; (split; [assumption|]); exists fs'; (split; [reflexivity|]);
      clear - F E; induction F as [|p p' t t' [H1 H2] F IH]; constructor; try assumption; (split; [assumption|]); [now rewrite <- E|now rewrite E].
Qed.
