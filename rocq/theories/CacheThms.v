(** C83: pipelines as objects: caches, shared estimators and failures. *)
From Coq Require Import String Lia.
From Verif Require Import Np NpFacts MParModel PipeModel PipeSpec PipeProofs PipeThms CacheModel CacheSpec.
Open Scope string_scope.
Local Open Scope list_scope.

Section Thms.
Context {O X Y V R : Type}.
Variable M : methods O X Y V R.
Variable L : leftovers O X Y V.
Notation params := (list (string * V)).
Notation arguments := (O * X * option Y * params)%type.
Variable same : arguments -> arguments -> bool.
Notation world := (@world O X Y V).
Notation steps_list := (list (string * step nat)).

(** *** what a call does to one estimator *)
Definition eff_fit (o : O) x y p : O * res unit :=
  if has M o Fit then match fit M o x y p with Ok o' => (o', Ok tt) | Err e => (l_fit L o x y p, Err e) end
  else (o, Err AttributeError).
Definition eff_ft0 (o : O) x y p : O * res X :=
  match fit_transform M o x y p with Ok (o', x') => (o', Ok x') | Err e => (l_fit_transform L o x y p, Err e) end.
Definition eff_ftr0 (o : O) x y p : O * res (X * option Y) :=
  match fit_transform_resample M o x y p with Ok (o', r) => (o', Ok r) | Err e => (l_fit_transform_resample L o x y p, Err e) end.
Definition eff_fp (o : O) x y p : O * res R :=
  match fit_predict M o x y p with Ok (o', r) => (o', Ok r) | Err e => (l_fit_predict L o x y p, Err e) end.
Definition eff_ft (o : O) x y p : O * res X :=
  if has M o FitTransform then eff_ft0 o x y p
  else match eff_fit o x y p with (o', Err e) => (o', Err e) | (o', Ok _) => (o', get M o' Transform (transform M o' x)) end.
Definition eff_ftr (o : O) x y p : O * res (X * option Y) :=
  if has M o FitTransformResample then eff_ftr0 o x y p
  else match eff_fit o x y p with (o', Err e) => (o', Err e) | (o', Ok _) => (o', get M o' TransformResample (transform_resample M o' x y)) end.
Definition eff_one d name (o : O) x y : O * res (X * option Y) :=
  match params_of name d with
  | Err e => (o, Err e)
  | Ok p => if (has M o Resample || has M o FitTransformResample)%bool && match y with Some _ => true | None => false end
            then eff_ftr o x y p
            else (fst (eff_ft o x y p), do x' <- snd (eff_ft o x y p); Ok (x', y))
  end.

(** Only the object at [a] changes. *)
Definition upd (w : world) a o (w' : world) : Prop :=
  (forall b, obj w' b = if Nat.eqb b a then o else obj w b) /\ next w' = next w.
Definition sound (w : world) : Prop :=
  (forall l o x y p x' o', In (l, (o, x, y, p), (x', o')) (st_ft w) -> eff_ft o x y p = (o', Ok x')) /\
  (forall l o x y p r o', In (l, (o, x, y, p), (r, o')) (st_ftr w) -> eff_ftr o x y p = (o', Ok r)).
Definition kept (w w' : world) : Prop := st_ft w' = st_ft w /\ st_ftr w' = st_ftr w.

Lemma upd_refl (w : world) a : upd w a (obj w a) w.
Proof. split; [|reflexivity]. intros b. destruct (Nat.eqb_spec b a); congruence. Qed.
Lemma upd_write (w : world) a o : upd w a o (write a o w).
Proof. split; reflexivity. Qed.
Lemma upd_at (w : world) a o w' : upd w a o w' -> obj w' a = o.
Proof. intros [H _]. now rewrite H, Nat.eqb_refl. Qed.

Ltac eff := repeat match goal with
  | |- context [has M ?o ?a] => destruct (has M o a)
  | |- context [match ?t with Ok _ => _ | Err _ => _ end] => destruct t as [[? ?]|?] || destruct t as [?|?]
  end; intros H; injection H as <- <-; cbn [fst snd]; (split; [first [apply upd_write|apply upd_refl]|split; [split; reflexivity|reflexivity]]).
Lemma forallb_ext' {A} (f g : A -> bool) l : (forall a, f a = g a) -> forallb f l = forallb g l.
Proof. intros H. induction l; cbn; [reflexivity|]. now rewrite H, IHl. Qed.
Lemma call_fit_eff a x y p (w w' : world) r : call_fit M L a x y p w = (w', r) ->
  upd w a (fst (eff_fit (obj w a) x y p)) w' /\ kept w w' /\ r = snd (eff_fit (obj w a) x y p).
Proof. unfold call_fit, eff_fit. eff. Qed.
Lemma call_ft_eff a x y p (w w' : world) r : call_fit_transform M L a x y p w = (w', r) ->
  upd w a (fst (eff_ft0 (obj w a) x y p)) w' /\ kept w w' /\ r = snd (eff_ft0 (obj w a) x y p).
Proof. unfold call_fit_transform, eff_ft0. eff. Qed.
Lemma call_ftr_eff a x y p (w w' : world) r : call_fit_transform_resample M L a x y p w = (w', r) ->
  upd w a (fst (eff_ftr0 (obj w a) x y p)) w' /\ kept w w' /\ r = snd (eff_ftr0 (obj w a) x y p).
Proof. unfold call_fit_transform_resample, eff_ftr0. eff. Qed.
Lemma call_fp_eff a x y p (w w' : world) r : call_fit_predict M L a x y p w = (w', r) ->
  upd w a (fst (eff_fp (obj w a) x y p)) w' /\ kept w w' /\ r = snd (eff_fp (obj w a) x y p).
Proof. unfold call_fit_predict, eff_fp. eff. Qed.
Lemma h_ft_eff a x y p (w w' : world) r : h_fit_transform_one M L a x y p w = (w', r) ->
  upd w a (fst (eff_ft (obj w a) x y p)) w' /\ kept w w' /\ r = snd (eff_ft (obj w a) x y p).
Proof.
  unfold h_fit_transform_one, eff_ft. destruct (has M (obj w a) FitTransform); [apply call_ft_eff|].
  destruct (call_fit M L a x y p w) as [w1 r1] eqn:E. apply call_fit_eff in E. destruct E as [U [K ->]].
  destruct (eff_fit (obj w a) x y p) as [o [u|e]]; cbn [fst snd] in *; intros H; injection H as <- <-; [rewrite (upd_at _ _ _ _ U)|]; auto.
Qed.
Lemma h_ftr_eff a x y p (w w' : world) r : h_fit_transform_resample_one M L a x y p w = (w', r) ->
  upd w a (fst (eff_ftr (obj w a) x y p)) w' /\ kept w w' /\ r = snd (eff_ftr (obj w a) x y p).
Proof.
  unfold h_fit_transform_resample_one, eff_ftr. destruct (has M (obj w a) FitTransformResample); [apply call_ftr_eff|].
  destruct (call_fit M L a x y p w) as [w1 r1] eqn:E. apply call_fit_eff in E. destruct E as [U [K ->]].
  destruct (eff_fit (obj w a) x y p) as [o [u|e]]; cbn [fst snd] in *; intros H; injection H as <- <-; [rewrite (upd_at _ _ _ _ U)|]; auto.
Qed.
Lemma sound_kept w w' : sound w -> kept w w' -> sound w'.
Proof. unfold sound, kept. intros H [-> ->]. exact H. Qed.

Hypothesis Hsame : forall a b, same a b = true -> a = b.
Lemma recall_in {A} (st : list (Z * arguments * A)) l k r : recall same st l k = Some r -> In (l, k, r) st.
Proof.
  induction st as [|[[l' k'] r'] t IH]; [discriminate|]. cbn [recall].
  destruct ((l =? l')%Z && same k k')%bool eqn:E; [|intros H; right; now apply IH].
  apply andb_true_iff in E. destruct E as [E1 E2]. apply Z.eqb_eq in E1. apply Hsame in E2. intros H. injection H as <-. subst. now left.
Qed.
Lemma ft_cached_eff mem a x y p (w w' : world) r : sound w -> fit_transform_one_cached M L same mem a x y p w = (w', r) ->
  upd w a (fst (eff_ft (obj w a) x y p)) w' /\ sound w' /\ r = snd (eff_ft (obj w a) x y p).
Proof.
  intros S. unfold fit_transform_one_cached. destruct mem as [l|].
  - destruct (recall same (st_ft w) l (obj w a, x, y, p)) as [[x' o']|] eqn:E.
    + apply recall_in in E. apply (proj1 S) in E. rewrite E. intros H. injection H as <- <-. split; [apply upd_write|]. split; [exact S|reflexivity].
    + destruct (h_fit_transform_one M L a x y p w) as [w1 r1] eqn:E1. apply h_ft_eff in E1. destruct E1 as [U [K ->]].
      destruct (eff_ft (obj w a) x y p) as [o' [x'|e]] eqn:E2; cbn [fst snd] in *; intros H; injection H as <- <-; (split; [exact U|]); (split; [|reflexivity]).
      * pose proof (sound_kept _ _ S K) as S1. split; cbn [st_ft st_ftr]; [|apply S1].
        intros l0 o0 x0 y0 p0 x1 o1 [I|I]; [|now apply (proj1 S1) in I]. injection I as <- <- <- <- <- <- <-. now rewrite (upd_at _ _ _ _ U).
      * now apply (sound_kept w).
  - intros H. apply h_ft_eff in H. destruct H as [U [K ->]]. split; [exact U|]. split; [now apply (sound_kept w)|reflexivity].
Qed.
Lemma ftr_cached_eff mem a x y p (w w' : world) r : sound w -> fit_transform_resample_one_cached M L same mem a x y p w = (w', r) ->
  upd w a (fst (eff_ftr (obj w a) x y p)) w' /\ sound w' /\ r = snd (eff_ftr (obj w a) x y p).
Proof.
  intros S. unfold fit_transform_resample_one_cached. destruct mem as [l|].
  - destruct (recall same (st_ftr w) l (obj w a, x, y, p)) as [[x' o']|] eqn:E.
    + apply recall_in in E. apply (proj2 S) in E. rewrite E. intros H. injection H as <- <-. split; [apply upd_write|]. split; [exact S|reflexivity].
    + destruct (h_fit_transform_resample_one M L a x y p w) as [w1 r1] eqn:E1. apply h_ftr_eff in E1. destruct E1 as [U [K ->]].
      destruct (eff_ftr (obj w a) x y p) as [o' [x'|e]] eqn:E2; cbn [fst snd] in *; intros H; injection H as <- <-; (split; [exact U|]); (split; [|reflexivity]).
      * pose proof (sound_kept _ _ S K) as S1. split; cbn [st_ft st_ftr]; [apply S1|].
        intros l0 o0 x0 y0 p0 x1 o1 [I|I]; [|now apply (proj2 S1) in I]. injection I as <- <- <- <- <- <- <-. now rewrite (upd_at _ _ _ _ U).
      * now apply (sound_kept w).
  - intros H. apply h_ftr_eff in H. destruct H as [U [K ->]]. split; [exact U|]. split; [now apply (sound_kept w)|reflexivity].
Qed.
Lemma one_eff mem d name a x y (w w' : world) r : sound w -> h_fit_one M L same mem d name a x y w = (w', r) ->
  upd w a (fst (eff_one d name (obj w a) x y)) w' /\ sound w' /\ r = snd (eff_one d name (obj w a) x y).
Proof.
  intros S. unfold h_fit_one, eff_one. destruct (params_of name d) as [p|e].
  2:{ intros H. injection H as <- <-. split; [apply upd_refl|auto]. }
  destruct (has M (obj w a) Resample || has M (obj w a) FitTransformResample)%bool eqn:K; [destruct y as [y|]|]; cbn [andb].
  - now apply ftr_cached_eff.
  - destruct (fit_transform_one_cached M L same mem a x None p w) as [w1 r1] eqn:E. apply ft_cached_eff in E; [|exact S]. destruct E as [U [S1 ->]].
    cbn [fst snd]. destruct (eff_ft (obj w a) x None p) as [o' [x'|e]]; cbn [fst snd] in *; intros H; injection H as <- <-; auto.
  - destruct (fit_transform_one_cached M L same mem a x y p w) as [w1 r1] eqn:E. apply ft_cached_eff in E; [|exact S]. destruct E as [U [S1 ->]].
    cbn [fst snd]. destruct (eff_ft (obj w a) x y p) as [o' [x'|e]]; cbn [fst snd] in *; intros H; injection H as <- <-; auto.
Qed.

(** *** two worlds with the same objects *)
Definition agree (w v : world) : Prop := (forall a, obj w a = obj v a) /\ next w = next v.
Lemma agree_view w v steps : agree w v -> view w steps = view v steps.
Proof. intros [H _]. apply map_ext. intros [n [| |a]]; cbn; [reflexivity..|]. now rewrite H. Qed.
Lemma agree_upd w v a o w' v' : agree w v -> upd w a o w' -> upd v a o v' -> agree w' v'.
Proof.
  intros [H1 H2] [U1 U2] [W1 W2]. split; [|congruence]. intros b. rewrite U1, W1. now destruct (Nat.eqb b a).
Qed.
Lemma agree_alloc w v o : agree w v -> agree (fst (alloc o w)) (fst (alloc o v)) /\ snd (alloc o w) = snd (alloc o v).
Proof. intros [H1 H2]. unfold alloc, agree. cbn. rewrite H2. repeat split. intros a. now rewrite H1. Qed.
Lemma sound_alloc w o : sound w -> sound (fst (alloc o w)).
Proof. intros S. exact S. Qed.

Ltac dlet E := match goal with |- context [let '(_, _) := ?t in _] => destruct t as [? ?] eqn:E end.
Lemma loop_agree mem d steps : forall x y w v w' v' st st' r r', agree w v -> sound w -> sound v ->
  h_fit_loop M L same mem d steps x y w = (w', st, r) -> h_fit_loop M L same mem d steps x y v = (v', st', r') ->
  agree w' v' /\ sound w' /\ sound v' /\ st = st' /\ r = r'.
Proof.
  induction steps as [|[n s] t IH]; intros x y w v w' v' st st' r r' A S T; cbn [h_fit_loop].
  { intros H1 H2. injection H1 as <- <- <-. injection H2 as <- <- <-. auto. }
  assert (Skip : forall s, (let '(w0, t', r0) := h_fit_loop M L same mem d t x y w in (w0, s :: t', r0)) = (w', st, r) ->
    (let '(w0, t', r0) := h_fit_loop M L same mem d t x y v in (w0, s :: t', r0)) = (v', st', r') ->
    agree w' v' /\ sound w' /\ sound v' /\ st = st' /\ r = r').
  { intros s0. destruct (h_fit_loop M L same mem d t x y w) as [[w1 t1] r1] eqn:E1. destruct (h_fit_loop M L same mem d t x y v) as [[v1 t2] r2] eqn:E2.
    intros H1 H2. injection H1 as <- <- <-. injection H2 as <- <- <-. destruct (IH _ _ _ _ _ _ _ _ _ _ A S T E1 E2) as [? [? [? [-> ->]]]]. auto. }
  destruct s as [| |a]; [apply Skip..|].
  assert (K : exists w1 v1 c, match mem with None => (w, a) | Some _ => alloc (clone M (obj w a)) w end = (w1, c) /\
    match mem with None => (v, a) | Some _ => alloc (clone M (obj v a)) v end = (v1, c) /\ agree w1 v1 /\ sound w1 /\ sound v1).
  { destruct mem as [l|]; [|exists w, v, a; auto].
    destruct (agree_alloc w v (clone M (obj w a)) A) as [A1 A2]. rewrite <- (proj1 A a).
    destruct (alloc (clone M (obj w a)) w) as [w1 c] eqn:E1, (alloc (clone M (obj w a)) v) as [v1 c'] eqn:E2. cbn [fst snd] in A1, A2. subst c'.
    exists w1, v1, c. repeat (split; [reflexivity|]). split; [exact A1|]. split.
    - pose proof (sound_alloc w (clone M (obj w a)) S) as Q. now rewrite E1 in Q.
    - pose proof (sound_alloc v (clone M (obj w a)) T) as Q. now rewrite E2 in Q. }
  destruct K as [w1 [v1 [c [-> [-> [A1 [S1 T1]]]]]]].
  destruct (h_fit_one M L same mem d n c x y w1) as [w2 r2] eqn:E1. destruct (h_fit_one M L same mem d n c x y v1) as [v2 r3] eqn:E2.
  apply one_eff in E1; [|exact S1]. apply one_eff in E2; [|exact T1]. destruct E1 as [U1 [S2 ->]], E2 as [U2 [T2 ->]].
  rewrite (proj1 A1 c) in *. pose proof (agree_upd _ _ _ _ _ _ A1 U1 U2) as A2.
  destruct (snd (eff_one d n (obj v1 c) x y)) as [[x' y']|e].
  - destruct (h_fit_loop M L same mem d t x' y' w2) as [[w3 t1] r1] eqn:E1. destruct (h_fit_loop M L same mem d t x' y' v2) as [[v3 t2] r2] eqn:E2.
    intros H1 H2. injection H1 as <- <- <-. injection H2 as <- <- <-. destruct (IH _ _ _ _ _ _ _ _ _ _ A2 S2 T2 E1 E2) as [? [? [? [-> ->]]]]. auto.
  - intros H1 H2. injection H1 as <- <- <-. injection H2 as <- <- <-. auto.
Qed.
Lemma steps_agree mem steps x y ps w v w' v' st st' r r' : agree w v -> sound w -> sound v ->
  h_fit_steps M L same mem steps x y ps w = (w', st, r) -> h_fit_steps M L same mem steps x y ps v = (v', st', r') ->
  agree w' v' /\ sound w' /\ sound v' /\ st = st' /\ r = r'.
Proof.
  intros A S T. unfold h_fit_steps. rewrite (agree_view w v steps A).
  destruct (do _ <- validate_steps M (view v steps); split_params ps (empty_params (view v steps))) as [d|e].
  2:{ intros H1 H2. injection H1 as <- <- <-. injection H2 as <- <- <-. auto. }
  destruct (h_fit_loop M L same mem d (removelast steps) x y w) as [[w1 t1] r1] eqn:E1.
  destruct (h_fit_loop M L same mem d (removelast steps) x y v) as [[v1 t2] r2] eqn:E2.
  destruct (loop_agree _ _ _ _ _ _ _ _ _ _ _ _ _ A S T E1 E2) as [A1 [S1 [T1 [-> ->]]]].
  destruct (rev steps) as [|[n s] q]; intros H1 H2; injection H1 as <- <- <-; injection H2 as <- <- <-; auto.
Qed.
(** A call on the object at [a] with its effect. *)
Definition on {A B} (a : nat) (f : O -> O * res A) (g : A -> B) (w : world) (w' : world) (r : res B) : Prop :=
  upd w a (fst (f (obj w a))) w' /\ kept w w' /\ r = (do x <- snd (f (obj w a)); Ok (g x)).
Lemma on_agree {A B} a f (g : A -> B) w v w' v' r r' : agree w v -> sound w -> sound v -> on a f g w w' r -> on a f g v v' r' ->
  agree w' v' /\ sound w' /\ sound v' /\ r = r'.
Proof.
  intros A0 S T [U1 [K1 ->]] [U2 [K2 ->]]. rewrite (proj1 A0 a) in *. split; [eapply agree_upd; eassumption|].
  split; [now apply (sound_kept w)|]. split; [now apply (sound_kept v)|reflexivity].
Qed.

(** The last step of the fitting methods: which call is made, if any. *)
Inductive last_call (f : fitting) (a : nat) (xt : X) (yr : option Y) (p : params) (w w' : world) (r : res (@answer X Y R)) : Prop :=
| last_call_intro : match f with
    | FFit => on a (fun o => eff_fit o xt yr p) (fun _ => Self) w w' r
    | FFitTransform => on a (fun o => eff_ft o xt yr p) Data w w' r
    | FFitTransformResample =>
        if has M (obj w a) FitTransformResample then on a (fun o => eff_ftr0 o xt yr p) (fun b => Both (Some b)) w w' r
        else if has M (obj w a) FitTransform then on a (fun o => eff_ft0 o xt yr p) (fun x' => Both (Some (x', yr))) w w' r
        else w' = w /\ r = Ok (Both None)
    | FFitPredict => on a (fun o => eff_fp o xt yr p) Value w w' r
    end -> last_call f a xt yr p w w' r.
Lemma last_agree f a xt yr p w v w' v' r r' : agree w v -> sound w -> sound v ->
  last_call f a xt yr p w w' r -> last_call f a xt yr p v v' r' -> agree w' v' /\ sound w' /\ sound v' /\ r = r'.
Proof.
  intros A S T [H1] [H2]. destruct f; try (eapply on_agree; eassumption).
  rewrite (proj1 A a) in H1. destruct (has M (obj v a) FitTransformResample); [eapply on_agree; eassumption|].
  destruct (has M (obj v a) FitTransform); [eapply on_agree; eassumption|]. destruct H1 as [-> ->], H2 as [-> ->]. auto.
Qed.
Definition last_answer (f : fitting) (xt : X) (yr : option Y) : res (@answer X Y R) :=
  match f with FFit => Ok Self | FFitTransform => Ok (Data xt) | FFitTransformResample => Ok (Both (Some (xt, yr))) | FFitPredict => Err AttributeError end.

Lemma final_last (t : steps_list) n s : final_address (t ++ [(n, s)]) = Ok (match s with SObj a => Some a | _ => None end).
Proof. unfold final_address. rewrite rev_app_distr. now destruct s. Qed.
Lemma steps_shape mem t n s x y ps w w' st r : h_fit_steps M L same mem (t ++ [(n, s)]) x y ps w = (w', st, r) ->
  exists t', st = t' ++ [(n, s)].
Proof.
  unfold h_fit_steps. destruct (do _ <- validate_steps M (view w (t ++ [(n, s)])); split_params ps (empty_params (view w (t ++ [(n, s)])))) as [d|e].
  - destruct (h_fit_loop M L same mem d (removelast (t ++ [(n, s)])) x y w) as [[w1 t1] r1]. rewrite rev_app_distr. cbn [rev app].
    intros H. injection H as <- <- <-. now exists t1.
  - intros H. injection H as <- <- <-. now exists t.
Qed.

(** All fitting methods: the steps but the last, then the last. *)
Lemma fitting_cases f mem t n s x y ps w w' st r : h_fitting M L same f mem (t ++ [(n, s)]) x y ps w = (w', st, r) ->
  (f = FFitPredict /\ (match s with SObj a => has M (obj w a) FitPredict = false | _ => True end) /\ w' = w /\ st = t ++ [(n, s)] /\ r = Err AttributeError) \/
  ((f = FFitPredict -> match s with SObj a => has M (obj w a) FitPredict = true | _ => False end) /\
   exists w1 r1, h_fit_steps M L same mem (t ++ [(n, s)]) x y ps w = (w1, st, r1) /\
   match r1 with
   | Err e => w' = w1 /\ r = Err e
   | Ok (xt, yr, p) => match s with
                       | SObj a => last_call f a xt yr p w1 w' r
                       | _ => w' = w1 /\ r = last_answer f xt yr
                       end
   end).
Proof.
  intros H. destruct f; cbn [h_fitting] in H.
  - right. split; [discriminate|]. unfold h_fit in H. destruct (h_fit_steps M L same mem (t ++ [(n, s)]) x y ps w) as [[w1 st1] r1] eqn:E.
    destruct (steps_shape _ _ _ _ _ _ _ _ _ _ _ E) as [t' ->]. destruct r1 as [[[xt yr] p]|e].
    + rewrite final_last in H. destruct s as [| |a].
      * injection H as <- <- <-. exists w1, (Ok (xt, yr, p)). auto.
      * injection H as <- <- <-. exists w1, (Ok (xt, yr, p)). auto.
      * destruct (call_fit M L a xt yr p w1) as [w2 r2] eqn:E2. injection H as <- <- <-. exists w1, (Ok (xt, yr, p)). split; [reflexivity|].
        constructor. apply call_fit_eff in E2. destruct E2 as [U [K ->]]. split; [exact U|]. split; [exact K|reflexivity].
    + injection H as <- <- <-. exists w1, (Err e). auto.
  - right. split; [discriminate|]. unfold h_fit_transform in H. rewrite final_last in H. destruct (h_fit_steps M L same mem (t ++ [(n, s)]) x y ps w) as [[w1 st1] r1] eqn:E.
    destruct r1 as [[[xt yr] p]|e].
    + destruct s as [| |a].
      * injection H as <- <- <-. exists w1, (Ok (xt, yr, p)). auto.
      * injection H as <- <- <-. exists w1, (Ok (xt, yr, p)). auto.
      * destruct (h_fit_transform_one M L a xt yr p w1) as [w2 r2] eqn:E2. injection H as <- <- <-. exists w1, (Ok (xt, yr, p)). split; [reflexivity|].
        constructor. apply h_ft_eff in E2. destruct E2 as [U [K ->]]. split; [exact U|]. split; [exact K|reflexivity].
    + injection H as <- <- <-. exists w1, (Err e). auto.
  - right. split; [discriminate|]. unfold h_fit_transform_resample in H. rewrite final_last in H. destruct (h_fit_steps M L same mem (t ++ [(n, s)]) x y ps w) as [[w1 st1] r1] eqn:E.
    destruct r1 as [[[xt yr] p]|e].
    + destruct s as [| |a].
      * injection H as <- <- <-. exists w1, (Ok (xt, yr, p)). auto.
      * injection H as <- <- <-. exists w1, (Ok (xt, yr, p)). auto.
      * assert (G : st1 = st /\ last_call FFitTransformResample a xt yr p w1 w' r).
        { split; [|constructor]; revert H;
          (destruct (has M (obj w1 a) FitTransformResample);
          [destruct (call_fit_transform_resample M L a xt yr p w1) as [w2 r2] eqn:E2; apply call_ftr_eff in E2
          |destruct (has M (obj w1 a) FitTransform); [destruct (call_fit_transform M L a xt yr p w1) as [w2 r2] eqn:E2; apply call_ft_eff in E2|]];
          intros H; injection H as <- <- <-; try reflexivity; try (destruct E2 as [U [K ->]]; split; [exact U|]; split; [exact K|reflexivity])). auto. }
        destruct G as [-> G]. exists w1, (Ok (xt, yr, p)). auto.
    + injection H as <- <- <-. exists w1, (Err e). auto.
  - unfold h_fit_predict in H. rewrite final_last in H. destruct s as [| |a].
    + left. injection H as <- <- <-. auto.
    + left. injection H as <- <- <-. auto.
    + destruct (has M (obj w a) FitPredict) eqn:F; [|left; injection H as <- <- <-; auto]. right. split; [auto|].
      destruct (h_fit_steps M L same mem (t ++ [(n, SObj a)]) x y ps w) as [[w1 st1] r1] eqn:E. destruct r1 as [[[xt yr] p]|e].
      * destruct (call_fit_predict M L a xt yr p w1) as [w2 r2] eqn:E2. injection H as <- <- <-. exists w1, (Ok (xt, yr, p)). split; [reflexivity|].
        constructor. apply call_fp_eff in E2. destruct E2 as [U [K ->]]. split; [exact U|]. split; [exact K|reflexivity].
      * injection H as <- <- <-. exists w1, (Err e). auto.
Qed.
Lemma fitting_empty f mem x y ps w : exists e, h_fitting M L same f mem [] x y ps w = (w, [], Err e).
Proof. destruct f; eexists; reflexivity. Qed.
Lemma fitting_agree f mem steps x y ps w v w' v' st st' r r' : agree w v -> sound w -> sound v ->
  h_fitting M L same f mem steps x y ps w = (w', st, r) -> h_fitting M L same f mem steps x y ps v = (v', st', r') ->
  agree w' v' /\ sound w' /\ sound v' /\ st = st' /\ r = r'.
Proof.
  intros A S T H1 H2. destruct steps as [|[n s] t _] using rev_ind.
  { destruct (fitting_empty f mem x y ps w) as [e E1], (fitting_empty f mem x y ps v) as [e' E2].
    rewrite E1 in H1. rewrite E2 in H2. injection H1 as <- <- <-. injection H2 as <- <- <-. destruct f; injection E1 as <-; injection E2 as <-; auto. }
  apply fitting_cases in H1, H2.
  destruct H1 as [[F [Hs [-> [-> ->]]]]|[F [w1 [r1 [E1 H1]]]]], H2 as [[F' [Hs' [-> [-> ->]]]]|[F' [v1 [r2 [E2 H2]]]]].
  - auto.
  - exfalso. specialize (F' F). destruct s; [exact F'..|]. rewrite (proj1 A) in Hs. congruence.
  - exfalso. specialize (F F'). destruct s; [exact F..|]. rewrite (proj1 A) in F. congruence.
  - destruct (steps_agree _ _ _ _ _ _ _ _ _ _ _ _ _ A S T E1 E2) as [A1 [S1 [T1 [-> ->]]]]. destruct r2 as [[[xt yr] p]|e].
    + destruct s as [| |a].
      * destruct H1 as [-> ->], H2 as [-> ->]. auto.
      * destruct H1 as [-> ->], H2 as [-> ->]. auto.
      * destruct (last_agree _ _ _ _ _ _ _ _ _ _ _ A1 S1 T1 H1 H2) as [? [? [? ->]]]. auto.
    + destruct H1 as [-> ->], H2 as [-> ->]. auto.
Qed.

(** *** histories *)
Notation perform := (perform M L same). Notation run := (run M L same).
Definition similar (s t : @state O X Y V) : Prop := agree (heap s) (heap t) /\ sound (heap s) /\ sound (heap t) /\ pipes s = pipes t.
Lemma forget_similar s t keep : similar s t -> similar (fst (perform s (OForget keep))) t.
Proof.
  intros [A [S [T P]]]. split; [exact A|]. split; [|auto]. split; cbn [perform fst heap st_ft st_ftr]; intros.
  - apply filter_In in H. destruct H as [H _]. now apply (proj1 S) in H.
  - apply filter_In in H. destruct H as [H _]. now apply (proj2 S) in H.
Qed.
Lemma similar_sym s t : similar s t -> similar t s.
Proof. intros [[A1 A2] [S [T P]]]. split; [split; auto|auto]. Qed.
Lemma perform_similar s t c : similar s t -> (forall k, c <> OForget k) ->
  similar (fst (perform s c)) (fst (perform t c)) /\ snd (perform s c) = snd (perform t c).
Proof.
  intros Q NF. destruct Q as [A [S [T P]]]. destruct c as [o|a o|p|i st|i f x y ps|i q|k]; cbn [CacheModel.perform]; rewrite ?P.
  - split; [|reflexivity]. destruct (agree_alloc _ _ o A) as [A1 _]. repeat split; cbn; auto; try apply A1; try apply S; try apply T.
  - split; [|reflexivity]. rewrite (proj2 A). cbn [fst]. destruct (Nat.ltb a (next (heap t))); [|now repeat split; try apply A; try apply S; try apply T].
    split; [|auto]. cbn [heap]. eapply agree_upd; [exact A|apply upd_write..].
  - split; [|reflexivity]. assert (E : forall p, exists_step (heap s) p = exists_step (heap t) p) by (intros [? [| |?]]; cbn; try reflexivity; now rewrite (proj2 A)).
    rewrite (forallb_ext' _ _ (p_steps p) E). cbn [fst]. destruct (forallb (exists_step (heap t)) (p_steps p)); (split; [exact A|]; split; [exact S|]; split; [exact T|]); cbn; congruence.
  - split; [|reflexivity]. assert (E : forall p, exists_step (heap s) p = exists_step (heap t) p) by (intros [? [| |?]]; cbn; try reflexivity; now rewrite (proj2 A)).
    rewrite (forallb_ext' _ _ st E). cbn [fst]. destruct (nth_error (pipes t) i) as [p|]; [destruct (forallb (exists_step (heap t)) st)|]; (split; [exact A|]; split; [exact S|]; split; [exact T|]); cbn; congruence.
  - destruct (nth_error (pipes t) i) as [p|]; [|split; [|reflexivity]; cbn [fst]; now repeat split; try apply A; try apply S; try apply T].
    destruct (h_fitting M L same f (p_memory p) (p_steps p) x y ps (heap s)) as [[w1 st1] r1] eqn:E1.
    destruct (h_fitting M L same f (p_memory p) (p_steps p) x y ps (heap t)) as [[w2 st2] r2] eqn:E2.
    destruct (fitting_agree _ _ _ _ _ _ _ _ _ _ _ _ _ _ A S T E1 E2) as [A1 [S1 [T1 [-> ->]]]]. cbn [fst snd]. split; [|reflexivity]. split; [exact A1|]. auto.
  - cbn [fst snd]. split; [now repeat split; try apply A; try apply S; try apply T|]. destruct (nth_error (pipes t) i) as [p|]; [|reflexivity]. now rewrite (agree_view _ _ _ A).
  - now elim (NF k).
Qed.
Lemma run_cons s c t : run s (c :: t) = (fst (run (fst (perform s c)) t), match snd (perform s c) with Some r => r :: snd (run (fst (perform s c)) t) | None => snd (run (fst (perform s c)) t) end).
Proof. cbn [CacheModel.run]. destruct (perform s c) as [s1 a]. cbn [fst snd]. now destruct (run s1 t) as [s2 l]. Qed.
Lemma run_program h : forall s t, similar s t -> similar (fst (run s h)) (fst (run t (program h))) /\ snd (run s h) = snd (run t (program h)).
Proof.
  induction h as [|c h IH]; intros s t Q; [auto|]. rewrite run_cons. cbn [fst snd].
  assert (G : (forall k, c <> OForget k) -> program (c :: h) = c :: program h) by (intros N; destruct c; try reflexivity; now elim (N keep)).
  assert (D : (exists k, c = OForget k) \/ forall k, c <> OForget k) by (destruct c; try (right; discriminate); left; eauto).
  destruct D as [[k ->]|N].
  - cbn [program filter CacheModel.perform snd]. apply IH. now apply forget_similar.
  - rewrite (G N), run_cons. cbn [fst snd]. destruct (perform_similar s t c Q N) as [Q1 E1]. rewrite E1. destruct (IH _ _ Q1) as [Q2 E2]. rewrite E2. auto.
Qed.
Lemma similar_trans s t u : similar s t -> similar t u -> similar s u.
Proof. intros [[A1 A2] [S [T P]]] [[B1 B2] [_ [U Q]]]. repeat split; try apply S; try apply U; congruence. Qed.

(** ** C83: results stored in caches never matter: programs behave the same whatever is lost from the
    caches and when. *)
Theorem memory_transparent (junk : nat -> O) h h' : program h = program h' ->
  snd (run (start junk) h) = snd (run (start junk) h') /\
  pipes (fst (run (start junk) h)) = pipes (fst (run (start junk) h')) /\
  forall a, obj (heap (fst (run (start junk) h))) a = obj (heap (fst (run (start junk) h'))) a.
Proof.
  intros E. assert (Q : similar (start junk) (start junk)) by (repeat split; intros; contradiction).
  destruct (run_program h _ _ Q) as [Q1 E1], (run_program h' _ _ Q) as [Q2 E2]. rewrite E in *. split; [congruence|].
  apply similar_sym in Q2. pose proof (similar_trans _ _ _ Q1 Q2) as [[A _] [_ [_ P]]]. auto.
Qed.

(** ** Refinement of the model without objects *)
Definition pone d name (o : O) x y : res (X * option Y * O) :=
  if (has M o Resample || has M o FitTransformResample)%bool then
    match y with
    | None => do p <- params_of name d; do r <- fit_transform_one M o x y p; Ok (fst r, y, snd r)
    | Some _ => do p <- params_of name d; fit_transform_resample_one M o x y p
    end
  else do p <- params_of name d; do r <- fit_transform_one M o x y p; Ok (fst r, y, snd r).
Lemma fit_loop_cons caching d n o t x y : fit_loop M caching d ((n, SObj o) :: t) x y =
  (do r <- pone d n (if caching then clone M o else o) x y;
   let '(x', y', fitted) := r in do rest <- fit_loop M caching d t x' y'; Ok ((n, SObj fitted) :: fst rest, snd rest)).
Proof. reflexivity. Qed.
Lemma eff_fit_pure o x y p : get M o Fit (fit M o x y p) = match eff_fit o x y p with (o', Ok _) => Ok o' | (_, Err e) => Err e end.
Proof. unfold get, eff_fit. destruct (has M o Fit); [|reflexivity]. now destruct (fit M o x y p). Qed.
Lemma eff_ft_pure o x y p : fit_transform_one M o x y p = match eff_ft o x y p with (o', Ok x') => Ok (x', o') | (_, Err e) => Err e end.
Proof.
  unfold fit_transform_one, eff_ft, eff_ft0. destruct (has M o FitTransform).
  - now destruct (fit_transform M o x y p) as [[o' x']|e].
  - rewrite eff_fit_pure. destruct (eff_fit o x y p) as [o' [u|e]]; [|reflexivity]. cbn [bind]. unfold get. destruct (has M o' Transform); [|reflexivity].
    now destruct (transform M o' x).
Qed.
Lemma eff_ftr_pure o x y p : fit_transform_resample_one M o x y p = match eff_ftr o x y p with (o', Ok r) => Ok (r, o') | (_, Err e) => Err e end.
Proof.
  unfold fit_transform_resample_one, eff_ftr, eff_ftr0. destruct (has M o FitTransformResample).
  - now destruct (fit_transform_resample M o x y p) as [[o' x']|e].
  - rewrite eff_fit_pure. destruct (eff_fit o x y p) as [o' [u|e]]; [|reflexivity]. cbn [bind]. unfold get. destruct (has M o' TransformResample); [|reflexivity].
    now destruct (transform_resample M o' x y).
Qed.
Lemma eff_one_pure d n o x y : pone d n o x y = match eff_one d n o x y with (o', Ok r) => Ok (r, o') | (_, Err e) => Err e end.
Proof.
  unfold pone, eff_one. destruct (params_of n d) as [p|e].
  2:{ destruct (has M o Resample || has M o FitTransformResample)%bool; [destruct y|]; reflexivity. }
  destruct (has M o Resample || has M o FitTransformResample)%bool; [destruct y as [y|]|]; cbn [andb bind].
  - apply eff_ftr_pure.
  - rewrite eff_ft_pure. now destruct (eff_ft o x None p) as [o' [x'|e]].
  - rewrite eff_ft_pure. now destruct (eff_ft o x y p) as [o' [x'|e]].
Qed.

Definition below (w : world) (steps : steps_list) : Prop := forall n a, In (n, SObj a) steps -> (a < next w)%nat.
Lemma view_eq (w w' : world) steps : (forall n a, In (n, SObj a) steps -> obj w' a = obj w a) -> view w' steps = view w steps.
Proof. intros H. apply map_ext_in. intros [n [| |a]] I; cbn; [reflexivity..|]. now rewrite (H n a I). Qed.
Lemma view_app (w : world) a b : view w (a ++ b) = view w a ++ view w b.
Proof. apply map_app. Qed.

Lemma loop_memory l d steps : forall x y (w w' : world) st r, sound w -> below w steps ->
  h_fit_loop M L same (Some l) d steps x y w = (w', st, r) ->
  sound w' /\ (next w <= next w')%nat /\ (forall b, (b < next w)%nat -> obj w' b = obj w b) /\ below w' st /\
  match r with
  | Ok xy => fit_loop M true d (view w steps) x y = Ok (view w' st, xy) /\ forall n a, In (n, SObj a) st -> (next w <= a)%nat
  | Err e => fit_loop M true d (view w steps) x y = Err e /\
      exists pre pre' n a post x1 y1, steps = pre ++ (n, SObj a) :: post /\ st = pre' ++ (n, SObj a) :: post /\
        (forall n a, In (n, SObj a) pre' -> (next w <= a)%nat) /\
        fit_loop M true d (view w pre) x y = Ok (view w' pre', (x1, y1)) /\ fit_loop M true d (view w [(n, SObj a)]) x1 y1 = Err e
  end.
Proof.
  induction steps as [|[n s] t IH]; intros x y w w' st r S B; cbn [h_fit_loop].
  { intros H. injection H as <- <- <-. repeat split; auto; try apply S; try (intros ? ? []). }
  assert (Bt : below w t) by (intros k a I; apply (B k a); now right).
  assert (Skip : (forall a, s <> SObj a) -> (let '(w0, t', r0) := h_fit_loop M L same (Some l) d t x y w in (w0, (n, s) :: t', r0)) = (w', st, r) ->
    sound w' /\ (next w <= next w')%nat /\ (forall b, (b < next w)%nat -> obj w' b = obj w b) /\ below w' st /\
    match r with
    | Ok xy => fit_loop M true d (view w ((n, s) :: t)) x y = Ok (view w' st, xy) /\ forall n a, In (n, SObj a) st -> (next w <= a)%nat
    | Err e => fit_loop M true d (view w ((n, s) :: t)) x y = Err e /\
      exists pre pre' k a post x1 y1, (n, s) :: t = pre ++ (k, SObj a) :: post /\ st = pre' ++ (k, SObj a) :: post /\
        (forall n a, In (n, SObj a) pre' -> (next w <= a)%nat) /\
        fit_loop M true d (view w pre) x y = Ok (view w' pre', (x1, y1)) /\ fit_loop M true d (view w [(k, SObj a)]) x1 y1 = Err e
    end).
  { intros Hs. destruct (h_fit_loop M L same (Some l) d t x y w) as [[w1 t1] r1] eqn:E. intros H. injection H as <- <- <-.
    destruct (IH _ _ _ _ _ _ S Bt E) as [S1 [N1 [K1 [B1 H1]]]]. split; [exact S1|]. split; [exact N1|]. split; [exact K1|].
    assert (F : forall q, fit_loop M true d (view w ((n, s) :: q)) x y = (do rest <- fit_loop M true d (view w q) x y; Ok ((n, view_step w s) :: fst rest, snd rest))).
    { intros q. destruct s as [| |a]; [reflexivity..|now elim (Hs a)]. }
    assert (Vs : view_step w1 s = view_step w s) by (destruct s as [| |a]; [reflexivity..|now elim (Hs a)]).
    split; [intros k a [I|I]; [injection I as -> ->; now elim (Hs a)|now apply (B1 k a)]|].
    destruct r1 as [xy|e]; destruct H1 as [H1 H2]; rewrite F, H1; (split; [cbn [bind fst snd view map]; now rewrite ?Vs|]).
    - intros k a [I|I]; [injection I as -> ->; now elim (Hs a)|now apply (H2 k a)].
    - destruct H2 as [pre [pre' [k [a [post [x1 [y1 [-> [-> [Fr [H2 H3]]]]]]]]]]]. exists ((n, s) :: pre), ((n, s) :: pre'), k, a, post, x1, y1.
      split; [reflexivity|]. split; [reflexivity|]. split; [intros k' a' [I|I]; [injection I as -> ->; now elim (Hs a')|now apply (Fr k' a')]|].
      rewrite F, H2. cbn [bind fst snd view map]. rewrite Vs. auto. }
  destruct s as [| |a]; [apply Skip; discriminate..|]. clear Skip. cbn [alloc].
  set (w1 := World _ _ _ _). set (c := next w).
  assert (S1 : sound w1) by exact S.
  assert (O1 : obj w1 c = clone M (obj w a)) by (cbn; now rewrite Nat.eqb_refl).
  assert (O2 : forall b, b <> c -> obj w1 b = obj w b) by (intros b Hb; cbn; destruct (Nat.eqb_spec b (next w)); [now elim Hb|reflexivity]).
  destruct (h_fit_one M L same (Some l) d n c x y w1) as [w2 r2] eqn:E1. apply one_eff in E1; [|exact S1]. destruct E1 as [[U V'] [S2 E1]].
  rewrite O1 in U, E1. pose proof (eff_one_pure d n (clone M (obj w a)) x y) as P.
  assert (Nx : next w2 = Datatypes.S (next w)) by (rewrite V'; reflexivity).
  assert (K2 : forall b, (b < next w)%nat -> obj w2 b = obj w b).
  { intros b Hb. rewrite U. destruct (Nat.eqb_spec b c); [subst; unfold c in *; lia|]. now apply O2. }
  destruct (eff_one d n (clone M (obj w a)) x y) as [o' rr]. cbn [fst snd] in U, E1. subst rr. destruct r2 as [[x' y']|e].
  - destruct (h_fit_loop M L same (Some l) d t x' y' w2) as [[w3 t1] r1] eqn:E. intros H. injection H as <- <- <-.
    assert (B2 : below w2 t) by (intros k b I; rewrite Nx; pose proof (Bt k b I); lia).
    destruct (IH _ _ _ _ _ _ S2 B2 E) as [S3 [N3 [K3 [B3 H3]]]]. rewrite Nx in N3, K3, H3.
    assert (Vt : forall q, (forall n a, In (n, SObj a) q -> In (n, SObj a) t) -> view w2 q = view w q) by (intros q Hq; apply view_eq; intros k b I; apply K2, (Bt k b), Hq, I).
    assert (Oc : obj w3 c = o').
    { rewrite K3 by (unfold c; lia). rewrite U, Nat.eqb_refl. reflexivity. }
    split; [exact S3|]. split; [unfold c in *; lia|]. split; [intros b Hb; rewrite K3 by lia; now apply K2|].
    split. { intros k b [I|I]; [injection I as <- <-; unfold c; lia|now apply (B3 k b)]. }
    assert (F : forall q, (forall n a, In (n, SObj a) q -> In (n, SObj a) t) -> fit_loop M true d (view w ((n, SObj a) :: q)) x y = (do rest <- fit_loop M true d (view w2 q) x' y'; Ok ((n, SObj o') :: fst rest, snd rest))).
    { intros q Hq. cbn [view map view_step fst snd]. fold (view w q). rewrite fit_loop_cons, P. cbn [bind]. now rewrite (Vt q Hq). }
    rewrite (F t (fun n a I => I)). destruct r1 as [xy|e]; destruct H3 as [H3 H4]; rewrite H3; cbn [bind fst snd].
    + split; [cbn [view map view_step fst snd]; rewrite Oc; reflexivity|]. intros k b [I|I]; [injection I as <- <-; unfold c; lia|]. pose proof (H4 k b I). lia.
    + split; [reflexivity|]. destruct H4 as [pre [pre' [k [b [post [x1 [y1 [-> [-> [Fr [H4 H5]]]]]]]]]]].
      exists ((n, SObj a) :: pre), ((n, SObj c) :: pre'), k, b, post, x1, y1. split; [reflexivity|]. split; [reflexivity|].
      split; [intros k' a' [I|I]; [injection I as <- <-; unfold c; lia|pose proof (Fr k' a' I); lia]|].
      rewrite F by (intros ? ? I; apply in_or_app; now left). rewrite H4. cbn [bind fst snd view map view_step]. rewrite Oc. split; [reflexivity|].
      rewrite Vt in H5; [exact H5|]. intros k' a' [I|[]]. injection I as <- <-. apply in_or_app. right. now left.
  - intros H. injection H as <- <- <-. split; [exact S2|]. split; [lia|]. split; [exact K2|]. split; [intros k b I; rewrite Nx; pose proof (B k b I); lia|].
    assert (F : forall q, fit_loop M true d (view w ((n, SObj a) :: q)) x y = Err e).
    { intros q. cbn [view map view_step fst snd]. fold (view w q). rewrite fit_loop_cons, P. reflexivity. }
    split; [apply F|]. exists [], [], n, a, t, x, y. split; [reflexivity|]. split; [reflexivity|]. split; [intros ? ? []|]. split; [reflexivity|]. apply F.
Qed.

Lemma addresses_In steps a : In a (addresses steps) <-> exists n, In (n, SObj a) steps.
Proof.
  unfold addresses. rewrite in_flat_map. split.
  - intros [[n s] [I H]]. destruct s as [| |b]; cbn in H; try contradiction. destruct H as [<-|[]]. eauto.
  - intros [n I]. exists (n, SObj a). split; [exact I|now left].
Qed.
(** Without memory only the estimators of the pipeline change. *)
Lemma loop_plain_frame d steps : forall x y (w w' : world) st r, sound w ->
  h_fit_loop M L same None d steps x y w = (w', st, r) ->
  sound w' /\ next w' = next w /\ st = steps /\ forall b, ~ In b (addresses steps) -> obj w' b = obj w b.
Proof.
  induction steps as [|[n s] t IH]; intros x y w w' st r S; cbn [h_fit_loop].
  { intros H. injection H as <- <- <-. repeat split; auto; apply S. }
  assert (Skip : forall s, (let '(w0, t', r0) := h_fit_loop M L same None d t x y w in (w0, (n, s) :: t', r0)) = (w', st, r) ->
    sound w' /\ next w' = next w /\ st = (n, s) :: t /\ forall b, ~ In b (addresses ((n, s) :: t)) -> obj w' b = obj w b).
  { intros s0. destruct (h_fit_loop M L same None d t x y w) as [[w1 t1] r1] eqn:E. intros H. injection H as <- <- <-.
    destruct (IH _ _ _ _ _ _ S E) as [S1 [N1 [-> K1]]]. split; [exact S1|]. split; [exact N1|]. split; [reflexivity|]. intros b Hb. apply K1.
    intros I. apply Hb. unfold addresses. cbn [flat_map]. apply in_or_app. now right. }
  destruct s as [| |a]; [apply Skip..|]. clear Skip.
  destruct (h_fit_one M L same None d n a x y w) as [w2 r2] eqn:E1. apply one_eff in E1; [|exact S]. destruct E1 as [[U N2] [S2 E1]].
  destruct r2 as [[x' y']|e].
  - destruct (h_fit_loop M L same None d t x' y' w2) as [[w3 t1] r1] eqn:E. intros H. injection H as <- <- <-.
    destruct (IH _ _ _ _ _ _ S2 E) as [S3 [N3 [-> K3]]]. split; [exact S3|]. split; [congruence|]. split; [reflexivity|]. intros b Hb. cbn [addresses flat_map snd app] in Hb.
    rewrite K3 by (intros I; apply Hb; now right). rewrite U. destruct (Nat.eqb_spec b a); [subst; elim Hb; now left|reflexivity].
  - intros H. injection H as <- <- <-. split; [exact S2|]. split; [exact N2|]. split; [reflexivity|]. intros b Hb. rewrite U. destruct (Nat.eqb_spec b a); [subst; elim Hb; now left|reflexivity].
Qed.
Lemma loop_plain d steps : forall x y (w w' : world) st r, sound w -> NoDup (addresses steps) ->
  h_fit_loop M L same None d steps x y w = (w', st, r) ->
  match r with
  | Ok xy => fit_loop M false d (view w steps) x y = Ok (view w' steps, xy)
  | Err e => fit_loop M false d (view w steps) x y = Err e /\
      exists pre n a post x1 y1, steps = pre ++ (n, SObj a) :: post /\ view w' post = view w post /\
        fit_loop M false d (view w pre) x y = Ok (view w' pre, (x1, y1)) /\ fit_loop M false d (view w [(n, SObj a)]) x1 y1 = Err e
  end.
Proof.
  induction steps as [|[n s] t IH]; intros x y w w' st r S ND; cbn [h_fit_loop].
  { intros H. injection H as <- <- <-. reflexivity. }
  assert (Skip : (forall a, s <> SObj a) -> (let '(w0, t', r0) := h_fit_loop M L same None d t x y w in (w0, (n, s) :: t', r0)) = (w', st, r) ->
    match r with
    | Ok xy => fit_loop M false d (view w ((n, s) :: t)) x y = Ok (view w' ((n, s) :: t), xy)
    | Err e => fit_loop M false d (view w ((n, s) :: t)) x y = Err e /\
      exists pre k a post x1 y1, (n, s) :: t = pre ++ (k, SObj a) :: post /\ view w' post = view w post /\
        fit_loop M false d (view w pre) x y = Ok (view w' pre, (x1, y1)) /\ fit_loop M false d (view w [(k, SObj a)]) x1 y1 = Err e
    end).
  { intros Hs. destruct (h_fit_loop M L same None d t x y w) as [[w1 t1] r1] eqn:E. intros H. injection H as <- <- <-.
    assert (ND' : NoDup (addresses t)) by (destruct s as [| |a]; [exact ND..|now elim (Hs a)]).
    pose proof (IH _ _ _ _ _ _ S ND' E) as H1.
    assert (F : forall q, fit_loop M false d (view w ((n, s) :: q)) x y = (do rest <- fit_loop M false d (view w q) x y; Ok ((n, view_step w s) :: fst rest, snd rest))).
    { intros q. destruct s as [| |a]; [reflexivity..|now elim (Hs a)]. }
    assert (Vs : view_step w1 s = view_step w s) by (destruct s as [| |a]; [reflexivity..|now elim (Hs a)]).
    destruct r1 as [xy|e].
    - rewrite F, H1. cbn [bind fst snd view map]. now rewrite Vs.
    - destruct H1 as [H1 [pre [k [a [post [x1 [y1 [-> [H2 [H3 H4]]]]]]]]]]. rewrite F, H1. split; [reflexivity|].
      exists ((n, s) :: pre), k, a, post, x1, y1. split; [reflexivity|]. split; [exact H2|]. rewrite F, H3. cbn [bind fst snd view map]. rewrite Vs. auto. }
  destruct s as [| |a]; [apply Skip; discriminate..|]. clear Skip.
  unfold addresses in ND. cbn [flat_map snd app] in ND. fold (addresses t) in ND. apply NoDup_cons_iff in ND. destruct ND as [Na ND].
  destruct (h_fit_one M L same None d n a x y w) as [w2 r2] eqn:E1. apply one_eff in E1; [|exact S]. destruct E1 as [[U N2] [S2 E1]].
  pose proof (eff_one_pure d n (obj w a) x y) as P. destruct (eff_one d n (obj w a) x y) as [o' rr]. cbn [fst snd] in U, E1. subst rr.
  assert (K2 : forall q, (forall n a, In (n, SObj a) q -> In (n, SObj a) t) -> view w2 q = view w q).
  { intros q Hq. apply view_eq. intros k b I. rewrite U. destruct (Nat.eqb_spec b a); [|reflexivity]. subst. elim Na. apply addresses_In. eauto. }
  destruct r2 as [[x' y']|e].
  - destruct (h_fit_loop M L same None d t x' y' w2) as [[w3 t1] r1] eqn:E. intros H. injection H as <- <- <-.
    pose proof (IH _ _ _ _ _ _ S2 ND E) as H1. destruct (loop_plain_frame _ _ _ _ _ _ _ _ S2 E) as [_ [_ [_ K3]]].
    assert (Oa : obj w3 a = o') by (rewrite K3 by exact Na; now rewrite U, Nat.eqb_refl).
    assert (F : forall q, (forall n a, In (n, SObj a) q -> In (n, SObj a) t) -> fit_loop M false d (view w ((n, SObj a) :: q)) x y = (do rest <- fit_loop M false d (view w2 q) x' y'; Ok ((n, SObj o') :: fst rest, snd rest))).
    { intros q Hq. cbn [view map view_step fst snd]. fold (view w q). rewrite fit_loop_cons, P. cbn [bind]. now rewrite (K2 q Hq). }
    rewrite (F t (fun n a I => I)). destruct r1 as [xy|e].
    + rewrite H1. cbn [bind fst snd view map view_step]. now rewrite Oa.
    + destruct H1 as [H1 [pre [k [b [post [x1 [y1 [-> [H2 [H3 H4]]]]]]]]]]. rewrite H1. split; [reflexivity|].
      exists ((n, SObj a) :: pre), k, b, post, x1, y1. split; [reflexivity|].
      split. { rewrite H2. apply K2. intros ? ? I. apply in_or_app. right. now right. }
      rewrite F by (intros ? ? I; apply in_or_app; now left). rewrite H3. cbn [bind fst snd view map view_step]. rewrite Oa. split; [reflexivity|].
      rewrite K2 in H4; [exact H4|]. intros ? ? [I|[]]. injection I as <- <-. apply in_or_app. right. now left.
  - intros H. injection H as <- <- <-.
    assert (F : forall q, fit_loop M false d (view w ((n, SObj a) :: q)) x y = Err e).
    { intros q. cbn [view map view_step fst snd]. fold (view w q). rewrite fit_loop_cons, P. reflexivity. }
    split; [apply F|]. exists [], n, a, t, x, y. split; [reflexivity|]. split; [now apply K2|]. split; [reflexivity|]. apply F.
Qed.

Definition ok (mem : option Z) (steps : steps_list) : Prop := mem <> None \/ NoDup (addresses steps).
Lemma NoDup_app_l {A} (a b : list A) : NoDup (a ++ b) -> NoDup a.
Proof.
  induction a as [|x a IH]; [constructor|]. cbn. intros H. apply NoDup_cons_iff in H. destruct H as [H1 H2]. constructor; [|auto].
  intros I. apply H1, in_or_app. now left.
Qed.
Lemma addresses_app a b : addresses (a ++ b) = addresses a ++ addresses b.
Proof. apply flat_map_app. Qed.
Lemma below_app w a b : below w (a ++ b) <-> below w a /\ below w b.
Proof.
  unfold below. split; [intros H; split; intros n k I; apply (H n k), in_or_app; auto|].
  intros [H1 H2] n k I. apply in_app_or in I. destruct I; eauto.
Qed.
(** The loop in both cases *)
Lemma loop_refine mem d steps x y (w w' : world) st r : sound w -> below w steps ->
  h_fit_loop M L same mem d steps x y w = (w', st, r) ->
  sound w' /\ (next w <= next w')%nat /\ below w' st /\
  (forall b, (b < next w)%nat -> (mem = None -> ~ In b (addresses steps)) -> obj w' b = obj w b) /\
  (mem = None -> st = steps) /\
  (forall b, (b < next w)%nat -> In b (addresses st) -> In b (addresses steps)) /\
  (ok mem steps -> match r with
   | Ok xy => fit_loop M (caching mem) d (view w steps) x y = Ok (view w' st, xy) /\ (mem <> None -> forall b, In b (addresses st) -> (next w <= b)%nat)
   | Err e => fit_loop M (caching mem) d (view w steps) x y = Err e /\
      exists pre pre' n a post x1 y1, steps = pre ++ (n, SObj a) :: post /\ st = pre' ++ (n, SObj a) :: post /\
        view w' post = view w post /\ (mem <> None -> forall b, In b (addresses pre') -> (next w <= b)%nat) /\
        fit_loop M (caching mem) d (view w pre) x y = Ok (view w' pre', (x1, y1)) /\
        fit_loop M (caching mem) d (view w [(n, SObj a)]) x1 y1 = Err e
   end).
Proof.
  intros S B H. destruct mem as [l|].
  - destruct (loop_memory _ _ _ _ _ _ _ _ _ S B H) as [S1 [N1 [K1 [B1 H1]]]]. split; [exact S1|]. split; [exact N1|]. split; [exact B1|].
    split; [auto|]. split; [discriminate|]. split.
    + intros b Hb I. apply addresses_In in I. destruct I as [n I]. destruct r as [xy|e].
      * destruct H1 as [_ H1]. pose proof (H1 n b I). lia.
      * destruct H1 as [_ [pre [pre' [k [a [post [x1 [y1 [-> [-> [Fr _]]]]]]]]]]]. apply in_app_or in I. destruct I as [I|I]; [pose proof (Fr n b I); lia|].
        apply addresses_In. exists n. apply in_or_app. auto.
    + intros _. destruct r as [xy|e]; destruct H1 as [H1 H2]; (split; [exact H1|]).
      * intros _ b I. apply addresses_In in I. destruct I as [n I]. now apply (H2 n b).
      * destruct H2 as [pre [pre' [n [a [post [x1 [y1 [-> [-> [Fr [H2 H3]]]]]]]]]]]. exists pre, pre', n, a, post, x1, y1. split; [reflexivity|]. split; [reflexivity|].
        split; [apply view_eq; intros k b I; apply K1, (B k b), in_or_app; right; now right|].
        split; [intros _ b I; apply addresses_In in I; destruct I as [k I]; now apply (Fr k b)|]. auto.
  - destruct (loop_plain_frame _ _ _ _ _ _ _ _ S H) as [S1 [N1 [-> K1]]]. split; [exact S1|]. split; [lia|].
    split; [intros n b I; rewrite N1; now apply (B n b)|]. split; [intros b _ Hb; apply K1; now apply Hb|]. split; [auto|]. split; [auto|].
    intros [Q|ND]; [now elim Q|]. pose proof (loop_plain _ _ _ _ _ _ _ _ S ND H) as H1. destruct r as [xy|e].
    + split; [exact H1|]. now intros [].
    + destruct H1 as [H1 [pre [n [a [post [x1 [y1 [-> [H2 H3]]]]]]]]]. split; [exact H1|]. exists pre, pre, n, a, post, x1, y1. split; [reflexivity|]. split; [reflexivity|].
      split; [exact H2|]. split; [now intros []|]. exact H3.
Qed.

Lemma empty_params_view (w : world) steps : @empty_params O V (view w steps) = @empty_params nat V steps.
Proof. unfold view. induction steps as [|[n [| |a]] t IH]; cbn in *; [reflexivity|exact IH|now f_equal..]. Qed.
Lemma removelast_view (w : world) t n s : removelast (view w (t ++ [(n, s)])) = view w t.
Proof. rewrite view_app. apply removelast_last. Qed.
Lemma steps_refine mem t n s x y ps (w w' : world) st r : sound w -> below w (t ++ [(n, s)]) ->
  h_fit_steps M L same mem (t ++ [(n, s)]) x y ps w = (w', st, r) ->
  sound w' /\ (next w <= next w')%nat /\ below w' st /\
  (forall b, (b < next w)%nat -> (mem = None -> ~ In b (addresses t)) -> obj w' b = obj w b) /\
  exists t', st = t' ++ [(n, s)] /\ (mem = None -> t' = t) /\
  (ok mem (t ++ [(n, s)]) ->
   match r with
   | Ok (xy, p) => fit_steps M (caching mem) (view w (t ++ [(n, s)])) x y ps = Ok (view w' st, xy, p) /\
       (forall a, s = SObj a -> obj w' a = obj w a /\ ~ In a (addresses t'))
   | Err e => fit_steps M (caching mem) (view w (t ++ [(n, s)])) x y ps = Err e /\
       (well_formed M (view w (t ++ [(n, s)])) -> params_ok (view w (t ++ [(n, s)])) ps ->
        exists d pre pre' k a post x1 y1, t = pre ++ (k, SObj a) :: post /\ t' = pre' ++ (k, SObj a) :: post /\
        view w' (post ++ [(n, s)]) = view w (post ++ [(n, s)]) /\ (mem <> None -> forall b, In b (addresses pre') -> (next w <= b)%nat) /\
        split_params ps (empty_params (view w (t ++ [(n, s)]))) = Ok d /\
        fit_loop M (caching mem) d (view w pre) x y = Ok (view w' pre', (x1, y1)) /\
        fit_loop M (caching mem) d (view w [(k, SObj a)]) x1 y1 = Err e)
   end).
Proof.
  intros S B H. apply below_app in B. destruct B as [B Bs]. unfold h_fit_steps in H. unfold fit_steps.
  destruct (validate_steps M (view w (t ++ [(n, s)]))) as [u|e] eqn:EV; cbn [bind] in H |- *.
  2:{ injection H as <- <- <-. split; [exact S|]. split; [lia|]. split; [apply below_app; auto|]. split; [auto|]. exists t. split; [reflexivity|]. split; [auto|].
      intros _. split; [reflexivity|]. intros W. apply validate_iff in W. congruence. }
  destruct (split_params ps (empty_params (view w (t ++ [(n, s)])))) as [d|e] eqn:ED.
  2:{ injection H as <- <- <-. split; [exact S|]. split; [lia|]. split; [apply below_app; auto|]. split; [auto|]. exists t. split; [reflexivity|]. split; [auto|].
      intros _. split; [reflexivity|]. intros W PO. apply split_iff in PO; [|apply W]. destruct PO as [d PO]. congruence. }
  destruct (h_fit_loop M L same mem d (removelast (t ++ [(n, s)])) x y w) as [[w1 t1] r1] eqn:E. rewrite removelast_last in E.
  rewrite rev_app_distr in H. cbn [rev app] in H. injection H as <- <- <-.
  destruct (loop_refine _ _ _ _ _ _ _ _ _ S B E) as [S1 [N1 [B1 [K1 [T1 [A1 H1]]]]]].
  split; [exact S1|]. split; [exact N1|]. split; [apply below_app; split; [exact B1|intros k a I; pose proof (Bs k a I); lia]|]. split; [exact K1|].
  exists t1. split; [reflexivity|]. split; [exact T1|]. intros OK.
  assert (OK1 : ok mem t).
  { destruct OK as [OK|OK]; [now left|]. right. rewrite addresses_app in OK. now apply NoDup_app_l in OK. }
  specialize (H1 OK1). cbn [bind]. rewrite removelast_view.
  assert (W : well_formed M (view w (t ++ [(n, s)]))) by (destruct u; now apply validate_iff).
  assert (Hp : s <> SNone -> params_of n d = Ok (addr n ps)).
  { intros Hs. apply (params_of_ok (view w (t ++ [(n, s)])) ps d n (view_step w s)); [apply W|exact ED| |destruct s; [now elim Hs|discriminate..]].
    rewrite view_app. apply in_or_app. right. now left. }
  assert (Hr : rev (view w (t ++ [(n, s)])) = (n, view_step w s) :: rev (view w t)) by (rewrite view_app, rev_app_distr; reflexivity).
  assert (Ob : forall a, s = SObj a -> obj w1 a = obj w a).
  { intros a ->. apply K1; [apply (Bs n a); now left|]. intros ->. destruct OK as [[]|OK]; [reflexivity|]. rewrite addresses_app in OK. cbn in OK.
    apply NoDup_remove in OK. rewrite app_nil_r in OK. apply OK. }
  assert (Vs : view_step w1 s = view_step w s) by (destruct s as [| |a]; [reflexivity..|cbn; now rewrite (Ob a eq_refl)]).
  destruct r1 as [xy|e].
  - destruct H1 as [H1 Fr]. rewrite H1. cbn [bind fst snd]. rewrite Hr.
    assert (Na : forall a, s = SObj a -> obj w1 a = obj w a /\ ~ In a (addresses t1)).
    { intros a Ha. split; [now apply Ob|]. subst s. assert (Hl : (a < next w)%nat) by (apply (Bs n a); now left). intros I. destruct mem as [l|].
      - pose proof (Fr ltac:(discriminate) a I). lia.
      - destruct OK as [[]|OK]; [reflexivity|]. rewrite addresses_app in OK. cbn in OK. apply NoDup_remove in OK. rewrite app_nil_r in OK. rewrite (T1 eq_refl) in I. tauto. }
    destruct s as [| |a]; cbn [view_step].
    + split; [rewrite view_app; reflexivity|exact Na].
    + split; [rewrite view_app; reflexivity|exact Na].
    + rewrite Hp by discriminate. cbn [bind]. split; [|exact Na]. rewrite view_app. cbn [view map view_step fst snd]. now rewrite (Ob a eq_refl).
  - destruct H1 as [H1 [pre [pre' [k [a [post [x1 [y1 [-> [-> [H2 [Fr [H3 H4]]]]]]]]]]]]]. rewrite H1. cbn [bind]. split; [reflexivity|]. intros _ _.
    exists d, pre, pre', k, a, post, x1, y1. split; [reflexivity|]. split; [reflexivity|]. split; [rewrite !view_app, H2; cbn [view map fst snd]; now rewrite Vs|].
    split; [exact Fr|]. auto.
Qed.

Lemma final_view (w : world) t n s : final_estimator (view w (t ++ [(n, s)])) = Ok (match s with SObj a => Some (obj w a) | _ => None end).
Proof. rewrite view_app. cbn [view map fst snd]. rewrite final_app. now destruct s. Qed.
Lemma view_last (w w1 : world) t n a o : upd w a o w1 -> ~ In a (addresses t) -> view w1 (t ++ [(n, SObj a)]) = with_last (view w (t ++ [(n, SObj a)])) o.
Proof.
  intros [U _] N. rewrite !view_app. cbn [view map view_step fst snd]. rewrite with_last_app. rewrite U, Nat.eqb_refl. f_equal.
  apply view_eq. intros k b I. rewrite U. destruct (Nat.eqb_spec b a); [|reflexivity]. subst. elim N. apply addresses_In. eauto.
Qed.
(** All fitting methods agree with the model without objects. *)
Lemma fitting_refine f mem steps x y ps (w w' : world) st r : sound w -> below w steps -> ok mem steps ->
  h_fitting M L same f mem steps x y ps w = (w', st, r) ->
  match on_states M f (caching mem) (view w steps) x y ps with
  | Ok (vs, a) => r = Ok a /\ view w' st = vs
  | Err e => r = Err e
  end.
Proof.
  intros S B OK H. destruct steps as [|[n s] t _] using rev_ind.
  { destruct f; cbn in H; injection H as <- <- <-; reflexivity. }
  apply fitting_cases in H. destruct H as [[-> [Hs [-> [-> ->]]]]|[F [w1 [r1 [E H]]]]].
  - cbn [on_states]. unfold pipe_fit_predict. rewrite final_view. cbn [bind]. destruct s as [| |a]; [reflexivity..|]. unfold get. now rewrite Hs.
  - destruct (steps_refine _ _ _ _ _ _ _ _ _ _ _ S B E) as [S1 [N1 [B1 [K1 [t' [-> [T1 H1]]]]]]]. specialize (H1 OK).
    destruct r1 as [[[xt yr] p]|e].
    + destruct H1 as [H1 Na].
      assert (G : forall a, s = SObj a -> last_call f a xt yr p w1 w' r -> match on_states M f (caching mem) (view w (t ++ [(n, s)])) x y ps with
        | Ok (vs, a) => r = Ok a /\ view w' (t' ++ [(n, s)]) = vs | Err e => r = Err e end).
      { intros a -> [HC]. destruct (Na a eq_refl) as [Oa Ia]. destruct f; cbn [on_states].
        - unfold pipe_fit. rewrite H1. cbn [bind]. rewrite final_view. cbn [bind]. rewrite eff_fit_pure.
          destruct HC as [U [_ ->]]. destruct (eff_fit (obj w1 a) xt yr p) as [o' [u|e]]; cbn [bind fst snd] in *; [|reflexivity]. split; [reflexivity|]. now apply view_last.
        - unfold pipe_fit_transform. rewrite final_view, H1. cbn [bind]. rewrite <- Oa.
          destruct HC as [U [_ ->]]. pose proof (eff_ft_pure (obj w1 a) xt yr p) as P. unfold fit_transform_one in P.
          destruct (eff_ft (obj w1 a) xt yr p) as [o' [x'|e]]; cbn [bind fst snd] in *.
          + destruct (has M (obj w1 a) FitTransform).
            * destruct (fit_transform M (obj w1 a) xt yr p) as [[o2 x2]|e2]; cbn [bind fst snd] in P |- *; [|discriminate]. injection P as -> ->. split; [reflexivity|]. now apply view_last.
            * apply bind_iff in P. destruct P as [o2 [P1 P2]]. rewrite P1. cbn [bind]. apply bind_iff in P2. destruct P2 as [x2 [P2 P3]]. injection P3 as -> ->. rewrite P2. cbn [bind fst snd]. split; [reflexivity|]. now apply view_last.
          + destruct (has M (obj w1 a) FitTransform).
            * destruct (fit_transform M (obj w1 a) xt yr p) as [[o2 x2]|e2]; cbn [bind fst snd] in P |- *; congruence.
            * destruct (get M (obj w1 a) Fit (fit M (obj w1 a) xt yr p)) as [o2|e2]; cbn [bind] in P |- *; [|congruence].
              destruct (get M o2 Transform (transform M o2 xt)); cbn [bind] in P |- *; congruence.
        - unfold pipe_fit_transform_resample. rewrite final_view, H1. cbn [bind]. rewrite <- Oa.
          destruct (has M (obj w1 a) FitTransformResample).
          + destruct HC as [U [_ ->]]. unfold eff_ftr0 in *. destruct (fit_transform_resample M (obj w1 a) xt yr p) as [[o' x']|e]; cbn [bind fst snd] in *; [|reflexivity]. split; [reflexivity|]. now apply view_last.
          + destruct (has M (obj w1 a) FitTransform).
            * destruct HC as [U [_ ->]]. unfold eff_ft0 in *. destruct (fit_transform M (obj w1 a) xt yr p) as [[o' x']|e]; cbn [bind fst snd] in *; [|reflexivity]. split; [reflexivity|]. now apply view_last.
            * destruct HC as [-> ->]. cbn [bind fst snd]. auto.
        - unfold pipe_fit_predict. rewrite final_view. cbn [bind]. unfold get. rewrite (F eq_refl), H1. cbn [bind]. rewrite <- Oa.
          destruct HC as [U [_ ->]]. unfold eff_fp in *. destruct (fit_predict M (obj w1 a) xt yr p) as [[o' v]|e]; cbn [bind fst snd] in *; [|reflexivity]. split; [reflexivity|]. now apply view_last. }
      destruct s as [| |a]; [| |now apply (G a)].
      * destruct H as [-> ->]. destruct f; cbn [on_states]; unfold pipe_fit, pipe_fit_transform, pipe_fit_transform_resample, pipe_fit_predict; rewrite ?final_view, ?H1; cbn [bind]; rewrite ?final_view, ?H1; cbn [bind fst snd last_answer]; auto.
      * destruct H as [-> ->]. destruct f; cbn [on_states]; unfold pipe_fit, pipe_fit_transform, pipe_fit_transform_resample, pipe_fit_predict; rewrite ?final_view, ?H1; cbn [bind]; rewrite ?final_view, ?H1; cbn [bind fst snd last_answer]; auto.
    + destruct H1 as [H1 _]. destruct H as [-> ->]. destruct f; cbn [on_states]; unfold pipe_fit, pipe_fit_transform, pipe_fit_transform_resample, pipe_fit_predict; rewrite ?final_view, ?H1; cbn [bind]; try reflexivity.
      destruct s as [| |a]; [now elim (F eq_refl)..|]. unfold get. rewrite (F eq_refl), ?H1. reflexivity.
Qed.

(** ** Reachable states *)
Definition valid (s : @state O X Y V) : Prop := sound (heap s) /\ forall p, In p (pipes s) -> below (heap s) (p_steps p).
Lemma below_le (w w' : world) st : (next w <= next w')%nat -> below w st -> below w' st.
Proof. intros H B n a I. pose proof (B n a I). lia. Qed.
Lemma exists_below (w : world) st : forallb (exists_step w) st = true -> below w st.
Proof. intros H n a I. rewrite forallb_forall in H. specialize (H _ I). cbn in H. now apply Nat.ltb_lt. Qed.
Lemma set_nth_In {A} (l : list A) i v p : In p (set_nth l i v) -> In p l \/ p = v.
Proof.
  revert i. induction l as [|x l IH]; intros [|i]; cbn; try tauto.
  - intros [->|I]; auto.
  - intros [->|I]; [auto|]. destruct (IH _ I); auto.
Qed.
Lemma nth_set_nth {A} (l : list A) i j v : nth_error (set_nth l i v) j = if Nat.eqb i j then match nth_error l j with Some _ => Some v | None => None end else nth_error l j.
Proof. revert i j. induction l as [|x l IH]; intros [|i] [|j]; cbn; try reflexivity; [now destruct (Nat.eqb i j)|apply IH]. Qed.
(** What fitting methods leave alone. *)
Lemma fitting_frame f mem steps x y ps (w w' : world) st r : sound w -> below w steps ->
  h_fitting M L same f mem steps x y ps w = (w', st, r) ->
  sound w' /\ (next w <= next w')%nat /\ below w' st /\ (mem = None -> st = steps) /\
  forall b, (b < next w)%nat -> ~ In b (addresses (match mem with None => steps | Some _ => match rev steps with q :: _ => [q] | [] => [] end end)) -> obj w' b = obj w b.
Proof.
  intros S B H. destruct steps as [|[n s] t _] using rev_ind.
  { destruct f; cbn in H; injection H as <- <- <-; auto. }
  apply fitting_cases in H. destruct H as [[-> [Hs [-> [-> ->]]]]|[F [w1 [r1 [E H]]]]]; [auto 6|].
  destruct (steps_refine _ _ _ _ _ _ _ _ _ _ _ S B E) as [S1 [N1 [B1 [K1 [t' [-> [T1 _]]]]]]].
  rewrite rev_app_distr. cbn [rev app].
  assert (St : mem = None -> t' ++ [(n, s)] = t ++ [(n, s)]) by (intros Q; now rewrite (T1 Q)).
  assert (K : forall b, (b < next w)%nat -> ~ In b (addresses (match mem with None => t ++ [(n, s)] | Some _ => [(n, s)] end)) -> obj w1 b = obj w b /\ forall a, s = SObj a -> b <> a).
  { intros b Hb Nb. split.
    - apply K1; [exact Hb|]. intros ->. rewrite addresses_app in Nb. intros I. apply Nb, in_or_app. now left.
    - intros a -> ->. apply Nb. destruct mem; [now left|]. rewrite addresses_app. apply in_or_app. right. now left. }
  assert (Same : w' = w1 -> sound w' /\ (next w <= next w')%nat /\ below w' (t' ++ [(n, s)]) /\ (mem = None -> t' ++ [(n, s)] = t ++ [(n, s)]) /\
    forall b, (b < next w)%nat -> ~ In b (addresses (match mem with None => t ++ [(n, s)] | Some _ => [(n, s)] end)) -> obj w' b = obj w b).
  { intros ->. split; [exact S1|]. split; [exact N1|]. split; [exact B1|]. split; [exact St|]. intros b Hb Nb. now apply K. }
  destruct r1 as [[[xt yr] p]|e]; [|apply Same; tauto]. destruct s as [| |a]; [apply Same; tauto..|].
  assert (U : w' = w1 \/ kept w1 w' /\ exists o, upd w1 a o w').
  { destruct H as [H]. destruct f.
    - destruct H as [U [Kp _]]. right. eauto.
    - destruct H as [U [Kp _]]. right. eauto.
    - destruct (has M (obj w1 a) FitTransformResample); [destruct H as [U [Kp _]]; right; eauto|].
      destruct (has M (obj w1 a) FitTransform); [destruct H as [U [Kp _]]; right; eauto|]. left. apply H.
    - destruct H as [U [Kp _]]. right. eauto. }
  destruct U as [U|[Kp [o [U Nx]]]]; [now apply Same|]. split; [now apply (sound_kept w1)|]. split; [lia|]. split; [apply (below_le w1); [lia|exact B1]|].
  split; [exact St|]. intros b Hb Nb. destruct (K b Hb Nb) as [K2 K3]. rewrite U, <- K2. destruct (Nat.eqb_spec b a); [|reflexivity]. subst. now elim (K3 a eq_refl).
Qed.
Lemma perform_valid s c : valid s -> valid (fst (perform s c)).
Proof.
  intros [S B]. destruct c as [o|a o|p|i st|i f x y ps|i q|k]; cbn [CacheModel.perform fst].
  - split; [exact S|]. intros p I. cbn [heap pipes] in *. apply (below_le (heap s)); [cbn; lia|auto].
  - destruct (Nat.ltb a (next (heap s))); [|split; assumption]. split; [exact S|]. exact B.
  - destruct (forallb (exists_step (heap s)) (p_steps p)) eqn:E; [|split; assumption]. split; [exact S|]. cbn [pipes heap]. intros q I. apply in_app_or in I.
    destruct I as [I|[<-|[]]]; [auto|now apply exists_below].
  - destruct (nth_error (pipes s) i) as [p|]; [|split; assumption]. destruct (forallb (exists_step (heap s)) st) eqn:E; [|split; assumption]. split; [exact S|].
    cbn [pipes heap]. intros q I. apply set_nth_In in I. destruct I as [I| ->]; [auto|now apply exists_below].
  - destruct (nth_error (pipes s) i) as [p|] eqn:Ep; [|split; assumption]. apply nth_error_In in Ep.
    destruct (h_fitting M L same f (p_memory p) (p_steps p) x y ps (heap s)) as [[w1 st1] r1] eqn:E1. cbn [fst].
    destruct (fitting_frame _ _ _ _ _ _ _ _ _ _ S (B p Ep) E1) as [S1 [N1 [B1 _]]]. split; [exact S1|]. cbn [pipes heap]. intros q I. apply set_nth_In in I.
    destruct I as [I| ->]; [|exact B1]. apply (below_le (heap s)); auto.
  - split; assumption.
  - split; [|exact B]. destruct S as [S T]. split; cbn [heap st_ft st_ftr]; intros.
    + apply filter_In in H. destruct H as [H _]. eauto.
    + apply filter_In in H. destruct H as [H _]. eauto.
Qed.
Lemma run_valid h : forall s, valid s -> valid (fst (run s h)).
Proof. induction h as [|c h IH]; intros s Hs; [exact Hs|]. rewrite run_cons. cbn [fst]. now apply IH, perform_valid. Qed.
Lemma start_valid junk : valid (start junk).
Proof. split; [split; intros; contradiction|intros p []]. Qed.
Lemma reached_valid junk h : valid (fst (run (start junk) h)).
Proof. apply run_valid, start_valid. Qed.

(** C83: whatever happened before, a fitting method of a pipeline with a memory, or without estimators used
    twice, answers as the model on the states of its estimators, and leaves the pipeline with the
    estimators as fitted there. *)
Theorem fitting_refines junk h i p f x y ps :
  let s := fst (run (start junk) h) in
  nth_error (pipes s) i = Some p -> unshared p ->
  let s' := fst (perform s (OFit i f x y ps)) in
  exists p', nth_error (pipes s') i = Some p' /\ p_memory p' = p_memory p /\
  match on_states M f (caching (p_memory p)) (view (heap s) (p_steps p)) x y ps with
  | Ok (vs, a) => snd (perform s (OFit i f x y ps)) = Some (Ok a) /\ view (heap s') (p_steps p') = vs
  | Err e => snd (perform s (OFit i f x y ps)) = Some (Err e)
  end.
Proof.
  intros s Hp U. destruct (reached_valid junk h) as [S B]. fold s in S, B. cbn [CacheModel.perform]. rewrite Hp.
  destruct (h_fitting M L same f (p_memory p) (p_steps p) x y ps (heap s)) as [[w1 st1] r1] eqn:E. cbn [fst snd pipes heap].
  exists (Pipe st1 (p_memory p)). rewrite nth_set_nth, Nat.eqb_refl, Hp. split; [reflexivity|]. split; [reflexivity|].
  apply (fitting_refine f (p_memory p) (p_steps p)) in E; [|exact S|apply B; now apply nth_error_In in Hp|exact U].
  destruct (on_states M f (caching (p_memory p)) (view (heap s) (p_steps p)) x y ps) as [[vs a]|e]; cbn [p_steps].
  - destruct E as [-> E]. auto.
  - now rewrite E.
Qed.

(** C83: a fitting method changes no other pipeline, no estimator outside its pipeline and, with a memory,
    no existing estimator at all but the last of the pipeline -- whether it returns or raises. *)
Theorem fitting_isolated junk h i p f x y ps :
  let s := fst (run (start junk) h) in
  nth_error (pipes s) i = Some p ->
  let s' := fst (perform s (OFit i f x y ps)) in
  (forall j, j <> i -> nth_error (pipes s') j = nth_error (pipes s) j) /\
  (p_memory p = None -> nth_error (pipes s') i = Some p) /\
  forall a, (a < next (heap s))%nat ->
    match p_memory p with
    | None => ~ In a (addresses (p_steps p))
    | Some _ => forall before n, p_steps p <> before ++ [(n, SObj a)]
    end -> obj (heap s') a = obj (heap s) a.
Proof.
  intros s Hp. destruct (reached_valid junk h) as [S B]. fold s in S, B. cbn [CacheModel.perform]. rewrite Hp.
  destruct (h_fitting M L same f (p_memory p) (p_steps p) x y ps (heap s)) as [[w1 st1] r1] eqn:E. cbn [fst pipes heap].
  apply fitting_frame in E; [|exact S|apply B; now apply nth_error_In in Hp]. destruct E as [_ [_ [_ [E1 E2]]]].
  split; [intros j Hj; rewrite nth_set_nth; destruct (Nat.eqb_spec i j); congruence|].
  split; [intros Q; rewrite nth_set_nth, Nat.eqb_refl, Hp; f_equal; rewrite (E1 Q); now destruct p|].
  intros a Ha Na. apply E2; [exact Ha|]. destruct (p_memory p); [|exact Na]. destruct (p_steps p) as [|[n st] t _] using rev_ind; [intros []|].
  rewrite rev_app_distr. cbn [rev app addresses flat_map snd]. rewrite app_nil_r. destruct st as [| |b]; [intros []..|]. intros [->|[]]. now elim (Na t n).
Qed.

(** *** failures *)
Lemma view_In (w : world) st q : In q st -> In (fst q, view_step w (snd q)) (view w st).
Proof. intros I. unfold view. apply (in_map (fun p => (fst p, view_step w (snd p))) _ _ I). Qed.
Hypothesis LM : lawful M.
Lemma wf_members (v : list (string * step O)) n s : well_formed M (v ++ [(n, s)]) ->
  forall k o, In (k, SObj o) v -> (has M o Fit = true \/ has M o FitTransform = true) /\ has M o Transform = true.
Proof. intros [_ [_ [b [m [q [E [H _]]]]]]] k o I. apply app_inj_tail in E. destruct E as [<- _]. exact (H k o I). Qed.

(** C83: when a fitting method raises, the estimators before the one that failed have been fitted on the
    new data, and the ones after it are as they were. *)
Theorem failed_fit junk h i p f x y ps e :
  let s := fst (run (start junk) h) in let w := heap s in
  nth_error (pipes s) i = Some p -> unshared p ->
  well_formed M (view w (p_steps p)) -> params_ok (view w (p_steps p)) ps ->
  snd (perform s (OFit i f x y ps)) = Some (Err e) ->
  let s' := fst (perform s (OFit i f x y ps)) in let w' := heap s' in
  (f = FFitPredict /\ e = AttributeError /\ w' = w /\ nth_error (pipes s') i = Some p) \/
  exists pre pre' n a post p' x1 y1,
    p_steps p = pre ++ (n, SObj a) :: post /\
    nth_error (pipes s') i = Some p' /\ p_steps p' = pre' ++ (n, SObj a) :: post /\
    learns M (caching (p_memory p)) ps (view w pre) x y (view w' pre') x1 y1 /\
    view w' post = view w post /\
    (post <> [] -> (p_memory p <> None -> obj w' a = obj w a) /\
                   forall z x2 y2, ~ learns M (caching (p_memory p)) ps (view w [(n, SObj a)]) x1 y1 z x2 y2).
Proof.
  intros s w Hp U W PO. destruct (reached_valid junk h) as [S B]. fold s in S, B. fold w in S, B. cbn [CacheModel.perform]. rewrite Hp.
  pose proof (B p (nth_error_In _ _ Hp)) as Bp. fold w.
  destruct (h_fitting M L same f (p_memory p) (p_steps p) x y ps w) as [[w1 st1] r1] eqn:E. cbn [fst snd pipes heap]. intros Hr. injection Hr as ->.
  rewrite nth_set_nth, Nat.eqb_refl, Hp. destruct p as [steps mem]. cbn [p_steps p_memory] in *. unfold unshared in U. cbn [p_steps p_memory] in U.
  destruct steps as [|[n st] t _] using rev_ind. { destruct W as [_ [_ [b [m [q [W _]]]]]]. destruct b; discriminate. }
  apply fitting_cases in E. destruct E as [[-> [Hs [-> [-> Hr]]]]|[F [w2 [r2 [E H]]]]].
  { left. injection Hr as ->. auto. }
  right. destruct (steps_refine _ _ _ _ _ _ _ _ _ _ _ S Bp E) as [S1 [N1 [B1 [K1 [t' [-> [T1 H1]]]]]]]. specialize (H1 U).
  destruct r2 as [[[xt yr] q]|e2].
  - destruct H1 as [H1 Na]. destruct st as [| |a].
    + exfalso. destruct H as [_ H]. destruct f; try discriminate. now elim F.
    + exfalso. destruct H as [_ H]. destruct f; try discriminate. now elim F.
    + rewrite !view_app in H1. cbn [view map view_step fst snd] in H1. fold (view w t) in H1. apply (fit_steps_iff M LM) in H1. destruct H1 as [_ [_ [a' [Ea [Hl _]]]]].
      fold (view w2 t') in Ea. destruct (Na a eq_refl) as [Oa Ia]. rewrite Oa in Ea. apply app_inj_tail in Ea. destruct Ea as [<- _].
      assert (V1 : view w1 t' = view w2 t').
      { assert (U1 : w1 = w2 \/ exists o, upd w2 a o w1).
        { destruct H as [H]. destruct f; try (destruct H as [U1 _]; eauto; fail).
          destruct (has M (obj w2 a) FitTransformResample); [destruct H as [U1 _]; eauto|]. destruct (has M (obj w2 a) FitTransform); [destruct H as [U1 _]; eauto|]. left. apply H. }
        destruct U1 as [->|[o [U1 _]]]; [reflexivity|]. apply view_eq. intros k b I. rewrite U1. destruct (Nat.eqb_spec b a); [|reflexivity]. subst. elim Ia. apply addresses_In. eauto. }
      exists t, t', n, a, [], (Pipe (t' ++ [(n, SObj a)]) mem), xt, yr. rewrite V1. repeat (split; [reflexivity|]). split; [exact Hl|]. split; [reflexivity|]. now intros [].
  - destruct H as [-> He]. injection He as <-. destruct H1 as [_ H1]. destruct (H1 W PO) as [d [pre [pre' [k [a [post [x1 [y1 [-> [-> [H2 [Fr [Hd [H3 H4]]]]]]]]]]]]]].
    set (v := view w ((pre ++ (k, SObj a) :: post) ++ [(n, st)])) in *.
    assert (Ndn : NoDup (map fst v)) by apply W.
    assert (Hm : forall j o, In (j, SObj o) (view w (pre ++ (k, SObj a) :: post)) -> (has M o Fit = true \/ has M o FitTransform = true) /\ has M o Transform = true).
    { unfold v in W. rewrite view_app in W. cbn [view map fst snd] in W. apply (wf_members _ _ _ W). }
    assert (Iv : forall q, In q (view w (pre ++ (k, SObj a) :: post)) -> In q v) by (intros q I; unfold v; rewrite view_app; apply in_or_app; now left).
    exists pre, pre', k, a, (post ++ [(n, st)]), (Pipe ((pre' ++ (k, SObj a) :: post) ++ [(n, st)]) mem), x1, y1. cbn [p_steps].
    split; [now rewrite <- app_assoc|]. split; [reflexivity|]. split; [now rewrite <- app_assoc|].
    split.
    { apply (fit_loop_iff M LM (caching mem) v ps d Ndn Hd) in H3; [exact H3| |].
      - intros q I. apply Iv. rewrite view_app. apply in_or_app. now left.
      - intros j o I. apply (Hm j o). rewrite view_app. apply in_or_app. now left. }
    split; [exact H2|]. intros _. split.
    + intros Mn. apply K1; [|intros Q; now elim Mn]. apply (Bp k a). apply in_or_app. left. apply in_or_app. right. now left.
    + intros z x2 y2 Hl. apply (fit_loop_iff M LM (caching mem) v ps d Ndn Hd) in Hl; [congruence| |].
      * intros q [<-|[]]. apply Iv. rewrite view_app. apply in_or_app. right. now left.
      * intros j o [Q|[]]. injection Q as <- <-. apply (Hm k (obj w a)). rewrite view_app. apply in_or_app. right. now left.
Qed.
End Thms.

(** ** With and without memory *)
Section Same.
Context {O X Y V R : Type}.
Variable M : methods O X Y V R.
Hypothesis RF : refits M.
Lemma one_refits d n o x y : pone M d n (clone M o) x y = pone M d n o x y.
Proof.
  unfold pone, fit_transform_one, fit_transform_resample_one, get. destruct (RF o) as [Hh Hf]. rewrite !Hh.
  assert (F1 : forall p, fit M (clone M o) x y p = fit M o x y p) by (intros p; apply Hf).
  assert (F2 : forall p, fit_transform M (clone M o) x y p = fit_transform M o x y p) by (intros p; apply Hf).
  assert (F3 : forall p, fit_transform_resample M (clone M o) x y p = fit_transform_resample M o x y p) by (intros p; apply Hf).
  destruct (params_of n d) as [p|e]; cbn [bind]; rewrite ?F1, ?F2, ?F3; reflexivity.
Qed.
Lemma loop_refits d steps : forall x y, fit_loop M true d steps x y = fit_loop M false d steps x y.
Proof.
  induction steps as [|[n [| |o]] t IH]; intros x y; [reflexivity| | |].
  - cbn [fit_loop]. now rewrite IH.
  - cbn [fit_loop]. now rewrite IH.
  - rewrite !fit_loop_cons, one_refits. destruct (pone M d n o x y) as [[[x' y'] o']|e]; cbn [bind]; [now rewrite IH|reflexivity].
Qed.
Lemma fitting_refits f steps x y ps : on_states M f true steps x y ps = on_states M f false steps x y ps.
Proof.
  assert (E : fit_steps M true steps x y ps = fit_steps M false steps x y ps).
  { unfold fit_steps. destruct (validate_steps M steps); [|reflexivity]. cbn [bind]. destruct (split_params ps (empty_params steps)); [|reflexivity]. cbn [bind]. now rewrite loop_refits. }
  destruct f; cbn [on_states]; unfold pipe_fit, pipe_fit_transform, pipe_fit_transform_resample, pipe_fit_predict; now rewrite E.
Qed.
(** C83: if clones fit as the originals do, a pipeline gives the same answers and ends up with the same
    fitted estimators with and without memory. *)
Theorem memory_optional (L : leftovers O X Y V) same : (forall a b, same a b = true -> a = b) ->
  forall junk h i j p q f x y ps,
  let s := fst (run M L same (start junk) h) in
  nth_error (pipes s) i = Some p -> nth_error (pipes s) j = Some q -> unshared p -> unshared q ->
  view (heap s) (p_steps p) = view (heap s) (p_steps q) ->
  let si := perform M L same s (OFit i f x y ps) in let sj := perform M L same s (OFit j f x y ps) in
  snd si = snd sj /\
  forall a, snd si = Some (Ok a) -> exists p' q', nth_error (pipes (fst si)) i = Some p' /\ nth_error (pipes (fst sj)) j = Some q' /\
    view (heap (fst si)) (p_steps p') = view (heap (fst sj)) (p_steps q').
Proof.
  intros HS junk h i j p q f x y ps s Hp Hq Up Uq Ev. cbv zeta.
  destruct (fitting_refines M L same HS junk h i p f x y ps Hp Up) as [p' [Hp' [_ P]]].
  destruct (fitting_refines M L same HS junk h j q f x y ps Hq Uq) as [q' [Hq' [_ Q]]]. fold s in Hp', Hq', P, Q.
  assert (Es : forall c d, on_states M f c (view (heap s) (p_steps p)) x y ps = on_states M f d (view (heap s) (p_steps q)) x y ps).
  { intros c d. rewrite <- Ev. destruct c, d; rewrite ?fitting_refits; reflexivity. }
  rewrite (Es _ (caching (p_memory q))) in P. destruct (on_states M f (caching (p_memory q)) (view (heap s) (p_steps q)) x y ps) as [[vs a]|e].
  - destruct P as [P1 P2], Q as [Q1 Q2]. split; [congruence|]. intros b _. exists p', q'. split; [exact Hp'|]. split; [exact Hq'|]. congruence.
  - split; [congruence|]. intros a Ha. congruence.
Qed.
End Same.

(** ** Examples, and what sharing and failures do *)
Definition ex_same (a b : ex_obj * list Z * option (list Z) * list (string * Z)) : bool.
Proof. refine (if (_ : {a = b} + {a <> b}) then true else false). repeat decide equality. Defined.
Example ex_same_ok : forall a b, ex_same a b = true -> a = b.
Proof. intros a b. unfold ex_same. match goal with |- context [if ?t then _ else _] => destruct t end; [auto|discriminate]. Qed.
Definition ex_left : leftovers ex_obj (list Z) (list Z) Z :=
  Leftovers _ _ _ _ (fun o _ _ _ => o) (fun o _ _ _ => o) (fun o _ _ _ => o) (fun o _ _ _ => o).
Definition ex_run := run ex_methods ex_left ex_same (start (fun _ => Window 0)).
Open Scope Z_scope.
(** Two pipelines with the same window and shift, one of them with a memory. *)
Definition ex_setup : list (@op ex_obj (list Z) (list Z) Z) :=
  [ONew (Window 1); ONew (Shift 0); ONew (Classifier ([], [])); ONew (Shift 0); ONew (Classifier ([], []));
   OPipe (Pipe [("w", SObj 0%nat); ("s", SObj 1%nat); ("c", SObj 2%nat)] (Some 7));
   OPipe (Pipe [("w", SObj 0%nat); ("s", SObj 3%nat); ("c", SObj 4%nat)] None)].
Example ex_reached :
  let s := fst (ex_run ex_setup) in
  (exists p q, nth_error (pipes s) 0 = Some p /\ nth_error (pipes s) 1 = Some q /\ unshared p /\ unshared q /\
     view (heap s) (p_steps p) = view (heap s) (p_steps q) /\ well_formed ex_methods (view (heap s) (p_steps p)) /\
     p_memory p <> None /\ p_memory q = None) /\
  snd (ex_run (ex_setup ++ [OFit 0 FFit [5; 6; 7] (Some [1; 2; 3]) []; OAsk 0 (QScore [5; 6; 7] (Some [1; 2; 3]) None)])) = [Ok Self; Ok (Value 222)] /\
  (* the second fit is loaded from the cache *)
  List.length (st_ftr (heap (fst (ex_run (ex_setup ++ [OFit 0 FFit [5; 6; 7] (Some [1; 2; 3]) []; OFit 0 FFit [5; 6; 7] (Some [1; 2; 3]) []]))))) = 1%nat.
Proof.
  split; [|split; vm_compute; reflexivity].
  exists (Pipe [("w", SObj 0%nat); ("s", SObj 1%nat); ("c", SObj 2%nat)] (Some 7)), (Pipe [("w", SObj 0%nat); ("s", SObj 3%nat); ("c", SObj 4%nat)] None).
  split; [reflexivity|]. split; [reflexivity|]. split; [left; discriminate|]. split; [right; cbn; repeat constructor; cbn; intuition discriminate|].
  split; [reflexivity|]. split; [|split; [discriminate|reflexivity]]. apply validate_iff. reflexivity.
Qed.
Example ex_refits : refits (Methods _ _ _ _ _ (has ex_methods) (fit ex_methods) (fit_transform ex_methods) (transform ex_methods) (fit_transform_resample ex_methods)
  (transform_resample ex_methods) (resample ex_methods) (inverse_transform1 ex_methods) (inverse_transform2 ex_methods) (fit_predict ex_methods) (predict ex_methods)
  (score ex_methods) (fun o => match o with Shift _ => Shift 0 | Classifier _ => Classifier ([], []) | o => o end)).
Proof. intros [k|b|c]; repeat split. Qed.

(** An estimator used by two steps, without memory: transform is not what fit_transform gave on the
    same data; with a memory it is. *)
Theorem shared_step_refuted :
  let program mem : list (@op ex_obj (list Z) (list Z) Z) := [ONew (Shift 0); OPipe (Pipe [("a", SObj 0%nat); ("b", SObj 0%nat); ("c", SPass)] mem);
                      OFit 0 FFitTransform [5; 6] None []; OAsk 0 (QTransform [5; 6])] in
  snd (ex_run (program None)) = [Ok (Data [20; 21]); Ok (Data [25; 26])] /\
  snd (ex_run (program (Some 7))) = [Ok (Data [20; 21]); Ok (Data [20; 21])].
Proof. split; vm_compute; reflexivity. Qed.
(** An estimator used by two pipelines without memory: fitting one changes the answers of the other;
    with a memory it does not. *)
Theorem shared_pipeline_refuted :
  let program mem : list (@op ex_obj (list Z) (list Z) Z) := [ONew (Shift 0); OPipe (Pipe [("a", SObj 0%nat); ("c", SPass)] mem); OPipe (Pipe [("a", SObj 0%nat); ("c", SPass)] mem);
                      OFit 0 FFit [5; 6] None []; OAsk 0 (QTransform [1]); OFit 1 FFit [8; 9] None []; OAsk 0 (QTransform [1])] in
  snd (ex_run (program None)) = [Ok Self; Ok (Data [6]); Ok Self; Ok (Data [9])] /\
  snd (ex_run (program (Some 7))) = [Ok Self; Ok (Data [6]); Ok Self; Ok (Data [6])].
Proof. split; vm_compute; reflexivity. Qed.
(** A fit that raises is not undone, with or without memory: the pipeline is left with a mixture of
    new and old estimators. *)
Theorem failed_fit_refuted : forall mem, In mem [None; Some 7] ->
  let r := ex_run [ONew (Shift 0); ONew (Classifier ([], [])); OPipe (Pipe [("a", SObj 0%nat); ("c", SObj 1%nat)] mem);
                   OFit 0 FFit [5; 6] (Some [1; 2]) []; OFit 0 FFit [9] None []] in
  snd r = [Ok Self; Err ValueError] /\
  option_map (fun p => view (heap (fst r)) (p_steps p)) (nth_error (pipes (fst r)) 0) =
    Some [("a", SObj (Shift 9)); ("c", SObj (Classifier ([10; 11], [1; 2])))].
Proof. intros mem [<-|[<-|[]]]; split; vm_compute; reflexivity. Qed.

Print Assumptions memory_transparent.
Print Assumptions fitting_refines.
Print Assumptions fitting_isolated.
Print Assumptions failed_fit.
Print Assumptions memory_optional.
Print Assumptions shared_step_refuted.
Print Assumptions shared_pipeline_refuted.
Print Assumptions failed_fit_refuted.
