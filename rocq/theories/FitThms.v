(* C87 and C88: histories of fits. *)
From Coq Require Import List String Bool.
From Verif Require Import Np FitTypes FitModel FitSpec FitAna.
Import ListNotations.
Open Scope string_scope.
Open Scope list_scope.

Definition some {T} (o : option T) : bool := match o with Some _ => true | None => false end.

(* what a successful fit certainly assigns *)
Definition assigned (c : cls) : option (list string) :=
  match da [] (c_fit c) [] ["X"] with
  | Some (n, r) => match merge n r with Some (A, _) => Some A | None => None end
  | None => None
  end.

Definition e_atts (e : exp) : list string :=
  flat_map (fun r => match r with Att a => [a] | _ => [] end) (e_reads e).
Fixpoint atts (s : stmt) : list string :=
  match s with
  | Seq s t => atts s ++ atts t
  | Let _ e | SetA _ e | Return e => e_atts e
  | If e s t => e_atts e ++ atts s ++ atts t
  | For _ e b => e_atts e ++ atts b
  | _ => []
  end.
(* the attributes read by the methods *)
Definition used (c : cls) : list string := flat_map (fun m => atts (snd m)) (c_meths c).

Fixpoint noret (s : stmt) : bool :=
  match s with
  | Seq s t | If _ s t => noret s && noret t
  | For _ _ b => noret b
  | Return _ => false
  | _ => true
  end.

Lemma noret_exec {V} (w : world V) par s : noret s = true ->
  forall a l a' l' v, exec w par s a l <> (a', l', Done v).
Proof.
  induction s as [|s IHs t IHt|x e|x e|e s IHs t IHt|x e b IHb|x|ns|e]; simpl; intros N a l a' l' u; try discriminate.
  - apply andb_true_iff in N. destruct N as [N1 N2].
    destruct (exec w par s a l) as [[b m] [|v|x]] eqn:E; [apply IHt; auto| |discriminate].
    exfalso. eapply IHs; eauto.
  - destruct (eval w par a l e); discriminate.
  - destruct (eval w par a l e); discriminate.
  - apply andb_true_iff in N. destruct N as [N1 N2].
    destruct (eval w par a l e) as [v|]; [|discriminate]. destruct (truth w v); auto.
  - destruct (eval w par a l e) as [v|]; [|discriminate]. clear e.
    revert a l. induction (items w v) as [|i is IH]; intros a l; [discriminate|].
    destruct (exec w par b a (set l x i)) as [[c m] [|y|y]] eqn:E; [apply IH| |discriminate].
    exfalso. eapply IHb; eauto.
  - destruct (check_fitted a ns); discriminate.
Qed.

(* --- two objects that agree on what is looked at -------------------------- *)

Definition rel {V} (F S : list string) (o1 o2 : obj V) : Prop :=
  o_par o1 = o_par o2 /\
  (forall x, In x S -> same (o_att o1) (o_att o2) x) /\
  (forall x, In x F -> bound (o_att o1) x /\ bound (o_att o2) x).

Definition meths_ok (c : cls) (F S : list string) : bool :=
  forallb (fun m => some (da F (snd m) S ["X"])) (c_meths c).

Lemma lookup_In l m s : lookup_meth l m = Some s -> In (m, s) l.
Proof.
  induction l as [|[n t] l IH]; simpl; [discriminate|].
  destruct (String.eqb m n) eqn:E; intros H; auto.
  apply String.eqb_eq in E. inversion H; subst; auto.
Qed.

Lemma locX {V} (X1 X2 : V) x : In x ["X"] -> bound (set [] "X" X1) x /\ bound (set [] "X" X2) x.
Proof. intros [<-|[]]. split; eexists; reflexivity. Qed.
Lemma locX1 {V} (X1 : V) x : In x ["X"] -> bound (set [] "X" X1) x.
Proof. intros H. apply (locX X1 X1 x H). Qed.
Lemma locXs {V} (X : V) x : In x ["X"] -> same (set [] "X" X) (set [] "X" X) x.
Proof. intros H. exact (proj1 (bound_same _ x) (locX1 X x H)). Qed.

Section C.
  Variable c : cls.
  Hypothesis Hfit : some (da [] (c_fit c) [] ["X"]) = true.

  Lemma fit_rel {V} (w : world V) F S o1 o2 X :
    rel F S o1 o2 ->
    fit_shows w c o1 X = fit_shows w c o2 X /\ rel F S (fit_leaves w c o1 X) (fit_leaves w c o2 X) /\
    (fit_shows w c o1 X = Self -> forall A, assigned c = Some A ->
       forall x, In x A -> same (o_att (fit_leaves w c o1 X)) (o_att (fit_leaves w c o2 X)) x).
  Proof.
    intros (RP & RS & RF). unfold fit_shows, fit_leaves, run_fit, assigned.
    destruct (da [] (c_fit c) [] ["X"]) as [[n r]|] eqn:D; [|discriminate].
    rewrite <- RP.
    destruct (da_sound w (o_par o1) [] (c_fit c) [] ["X"] n r (o_att o1) (o_att o2) (set [] "X" X) (set [] "X" X) D)
      as (a1 & a2 & l1 & l2 & o & E1 & E2 & KF1 & KF2 & KA & KL & En); try (simpl; tauto).
    { apply locXs. }
    rewrite E1, E2. simpl. split; [auto|]. split.
    - repeat split; simpl; auto; intros; apply RF in H; destruct H; auto.
    - intros Ok A HA x Hx. destruct o as [|v|y]; try discriminate; simpl in En.
      + apply (inF_merge_l n r) in En. destruct (merge n r) as [[A' L']|]; [|discriminate].
        inversion HA; subst. apply En; auto.
      + assert (En' : inF r (same a1 a2) (fun _ => True)) by exact En.
        apply (inF_merge_r n r) in En'. destruct (merge n r) as [[A' L']|]; [|discriminate].
        inversion HA; subst. apply En'; auto.
  Qed.

  Lemma call_rel {V} (w : world V) F S o1 o2 m X :
    meths_ok c F S = true -> rel F S o1 o2 ->
    snd (run_call w c o1 m X) = snd (run_call w c o2 m X) /\
    rel F S (fst (run_call w c o1 m X)) (fst (run_call w c o2 m X)).
  Proof.
    intros M (RP & RS & RF). unfold run_call. destruct (lookup_meth (c_meths c) m) as [s|] eqn:Lk.
    - apply lookup_In in Lk. unfold meths_ok in M. rewrite forallb_forall in M. apply M in Lk. simpl in Lk.
      destruct (da F s S ["X"]) as [[n r]|] eqn:D; [|discriminate].
      rewrite <- RP.
      destruct (da_sound w (o_par o1) F s S ["X"] n r (o_att o1) (o_att o2) (set [] "X" X) (set [] "X" X) D RF RS)
        as (a1 & a2 & l1 & l2 & o & E1 & E2 & KF1 & KF2 & KA & KL & En).
      { apply locXs. }
      rewrite E1, E2. simpl. split; auto. repeat split; simpl; auto; intros; apply RF in H; destruct H; auto.
    - simpl. repeat split; auto; apply RF; auto.
  Qed.

  Lemma run_rel {V} (w : world V) F S h : meths_ok c F S = true ->
    forall o1 o2, rel F S o1 o2 -> (forall a, In (Get a) h -> In a S) ->
    seen w c o1 h = seen w c o2 h.
  Proof.
    intros M. unfold seen. induction h as [|q h IH]; intros o1 o2 HR HG; simpl; auto.
    assert (K : snd (run_op w c o1 q) = snd (run_op w c o2 q) /\
                rel F S (fst (run_op w c o1 q)) (fst (run_op w c o2 q))).
    { destruct q as [p|X|m X|a]; simpl.
      - split; auto. destruct HR as (RP & RS & RF). repeat split; simpl; auto; apply RF; auto.
      - destruct (fit_rel w F S o1 o2 X HR) as (K1 & K2 & _). auto.
      - apply call_rel; auto.
      - split; auto. destruct HR as (RP & RS & RF). destruct (RS a) as (v & G1 & G2).
        { apply HG; simpl; auto. }
        rewrite G1, G2; auto. }
    destruct (run_op w c o1 q) as [o1' r1]. destruct (run_op w c o2 q) as [o2' r2]. simpl in K.
    destruct K as [-> K].
    specialize (IH o1' o2' K (fun a Ha => HG a (or_intror Ha))).
    destruct (run w c o1' h), (run w c o2' h). simpl in *. congruence.
  Qed.
End C.

Lemma run_app {V} (w : world V) c h1 h2 : forall o, after w c o (h1 ++ h2) = after w c (after w c o h1) h2.
Proof.
  unfold after. induction h1 as [|q h IH]; intros o; simpl; auto.
  destruct (run_op w c o q) as [o' r]. specialize (IH o').
  destruct (run w c o' (h ++ h2)), (run w c o' h). simpl in *. auto.
Qed.

Lemma after_cons {V} (w : world V) c q h o : after w c o (q :: h) = after w c (fst (run_op w c o q)) h.
Proof.
  unfold after. simpl. destruct (run_op w c o q) as [o' r]. simpl. destruct (run w c o' h). auto.
Qed.

Lemma no_success_cons {V} (w : world V) c q h o :
  no_success w c o (q :: h) -> no_success w c (fst (run_op w c o q)) h.
Proof.
  intros H h' X t E. specialize (H (q :: h') X t). rewrite after_cons in H. apply H. rewrite E. auto.
Qed.

(* --- C87 ------------------------------------------------------------------ *)

Definition check_forgets (c : cls) : bool :=
  some (da [] (c_fit c) [] ["X"]) &&
  match assigned c with
  | Some A => meths_ok c [] A && forallb (fun a => mem a A) (c_public c)
  | None => false
  end.

Lemma check_forgets_sound c : check_forgets c = true -> forgets_the_past c.
Proof.
  unfold check_forgets. intros H. apply andb_true_iff in H. destruct H as [Hf H].
  destruct (assigned c) as [A|] eqn:HA; [|discriminate]. apply andb_true_iff in H. destruct H as [HM HP].
  rewrite forallb_forall in HP.
  intros V w p0 h0 p X o n.
  assert (R0 : rel [] [] o n).
  { unfold o, n. rewrite run_app, after_cons. split; [reflexivity|]. split; simpl; tauto. }
  destruct (fit_rel c Hf w [] [] o n X R0) as (K1 & (K2 & _ & _) & K4). split; auto.
  intros Ok h HD. apply (run_rel c Hf w [] A h HM).
  - split; [auto|]. split; [|simpl; tauto]. intros x Hx. apply (K4 Ok A); auto.
  - intros a Ha. apply HD, HP in Ha. apply mem_In; auto.
Qed.

(* --- C88 ------------------------------------------------------------------ *)

Definition no_writes (c : cls) : bool := forallb (fun m => match writes (snd m) with [] => true | _ => false end) (c_meths c).

Lemma call_no_writes {V} (w : world V) c o m X : no_writes c = true ->
  forall x, get (o_att (fst (run_call w c o m X))) x = get (o_att o) x.
Proof.
  intros N x. unfold run_call. destruct (lookup_meth (c_meths c) m) as [s|] eqn:Lk; auto.
  apply lookup_In in Lk. unfold no_writes in N. rewrite forallb_forall in N. apply N in Lk. simpl in Lk.
  destruct (exec w (o_par o) s (o_att o) (set [] "X" X)) as [[a' l'] r] eqn:E. simpl.
  apply (proj1 (frame _ _ _ _ _ _ _ _ E)). destruct (writes s); [simpl; tauto|discriminate].
Qed.

Lemma call_par {V} (w : world V) c o m X : o_par (fst (run_call w c o m X)) = o_par o.
Proof.
  unfold run_call. destruct (lookup_meth (c_meths c) m); auto.
  destruct (exec _ _ _ _ _) as [[? ?] ?]. auto.
Qed.

Definition base_ok (c : cls) : bool :=
  some (da [] (c_fit c) [] ["X"]) && no_writes c &&
  match assigned c with
  | Some A => meths_ok c A (used c) && forallb (fun a => mem a A) (used c)
  | None => false
  end.

Lemma fit_bound {V} (w : world V) c o X : some (da [] (c_fit c) [] ["X"]) = true ->
  forall x, bound (o_att o) x -> bound (o_att (fit_leaves w c o X)) x.
Proof.
  intros Hf x Hx. destruct (da [] (c_fit c) [] ["X"]) as [[n r]|] eqn:D; [|discriminate].
  unfold fit_leaves, run_fit.
  destruct (exec w (o_par o) (c_fit c) (o_att o) (set [] "X" X)) as [[a' l'] q] eqn:E. simpl.
  apply (proj1 (da_bound w _ _ _ _ _ _ _ _ _ _ _ D (fun x (H : In x []) => match H with end) (locX1 X) E) x Hx).
Qed.

Lemma fit_assigned {V} (w : world V) c o X A : some (da [] (c_fit c) [] ["X"]) = true ->
  assigned c = Some A -> fit_shows w c o X = Self ->
  forall x, In x A -> bound (o_att (fit_leaves w c o X)) x.
Proof.
  intros Hf HA Ok x Hx. apply bound_same.
  destruct (fit_rel c Hf w [] [] o o X) as (_ & _ & K).
  { split; [reflexivity|]. split; simpl; tauto. }
  apply (K Ok A HA); auto.
Qed.

(* from agreement on the attributes the methods use *)
Lemma agree_seen {V} (w : world V) c A p (a1 a2 : store V) h :
  base_ok c = true -> assigned c = Some A ->
  (forall x, In x (used c) -> get a2 x = get a1 x) ->
  (forall x, In x A -> bound a1 x) -> (forall x, In x A -> bound a2 x) ->
  no_get h -> seen w c (Build_obj p a2) h = seen w c (Build_obj p a1) h.
Proof.
  intros B HA G B1 B2 NG. unfold base_ok in B. rewrite HA in B.
  apply andb_true_iff in B. destruct B as [B B']. apply andb_true_iff in B. destruct B as [Bf Bw].
  apply andb_true_iff in B'. destruct B' as [Bm Bu]. rewrite forallb_forall in Bu.
  apply (run_rel c Bf w A (used c) h Bm).
  - split; [auto|]. split; simpl.
    + intros x Hx. destruct (B1 x) as [v Hv]; [apply mem_In, Bu; auto|]. exists v. rewrite G; auto.
    + auto.
  - intros a Ha. exfalso. apply (NG a Ha).
Qed.

Definition check_harmless (c : cls) : bool :=
  base_ok c && some (ua (used c) (c_fit c) [] ["X"] false).

Lemma failing_fit_ua {V} (w : world V) c R a0 o X :
  some (da [] (c_fit c) [] ["X"]) = true -> some (ua R (c_fit c) [] ["X"] false) = true ->
  agree R a0 (o_att o) -> fit_shows w c o X <> Self -> agree R a0 (o_att (fit_leaves w c o X)).
Proof.
  intros Hf Hu Ha NS. destruct (da [] (c_fit c) [] ["X"]) as [[n r]|] eqn:D; [|discriminate].
  destruct (ua R (c_fit c) [] ["X"] false) as [d|] eqn:U; [|discriminate].
  unfold fit_shows, fit_leaves, run_fit in *.
  destruct (exec w (o_par o) (c_fit c) (o_att o) (set [] "X" X)) as [[a' l'] q] eqn:E. simpl in *.
  pose proof (ua_sound R w (o_par o) a0 (c_fit c) _ _ _ _ _ _ _ _ _ _ _ D U
               (fun x (H : In x []) => match H with end) (locX1 X) (fun _ => Ha) E) as K.
  destruct q; [congruence|congruence|exact K].
Qed.

Lemma check_harmless_sound c : check_harmless c = true -> failed_fits_harmless c.
Proof.
  unfold check_harmless. intros H. apply andb_true_iff in H. destruct H as [B Hu].
  intros V w p0 h0 X0 h1 h o1 Ok o2 NS o3 NG.
  pose proof B as B'. unfold base_ok in B'. destruct (assigned c) as [A|] eqn:HA;
    [|rewrite andb_false_r in B'; discriminate].
  apply andb_true_iff in B'. destruct B' as [Bf _]. apply andb_true_iff in Bf. destruct Bf as [Bf Bw].
  assert (K : forall o, agree (used c) (o_att o2) (o_att o) -> (forall x, In x A -> bound (o_att o) x) ->
                no_success w c o h1 ->
                agree (used c) (o_att o2) (o_att (after w c o h1)) /\
                (forall x, In x A -> bound (o_att (after w c o h1)) x)).
  { clear o3 NG h NS. induction h1 as [|q h1 IH]; intros o Ag Bd NS; [split; auto|].
    rewrite after_cons. apply IH; [| |apply no_success_cons; auto].
    - destruct q as [p|X|m X|a]; simpl; auto.
      + apply failing_fit_ua; auto. apply (NS [] X h1); auto.
      + intros x Hx. rewrite call_no_writes by auto. apply Ag; auto.
    - destruct q as [p|X|m X|a]; simpl; auto.
      + intros x Hx. apply (fit_bound w c o X Bf); auto.
      + intros x Hx. unfold bound. rewrite call_no_writes by auto. apply Bd; auto. }
  assert (BA : forall x, In x A -> bound (o_att o2) x) by (intros; eapply fit_assigned; eauto).
  destruct (K o2) as [K1 K2]; auto. { intros x _; auto. }
  assert (E3 : o3 = Build_obj (o_par o3) (o_att o3)) by (destruct o3; auto).
  rewrite E3 at 1. apply (agree_seen w c A); auto.
Qed.

Definition k0 : know := {| kA := []; kL := ["X"]; qA := []; qL := []; kD := []; kd := false |}.

Definition check_same_params (c : cls) : bool :=
  base_ok c && noret (c_fit c) && some (ba (used c) (c_fit c) k0 []).

Lemma check_same_params_sound c : check_same_params c = true -> failed_fits_harmless_same_params c.
Proof.
  unfold check_same_params. intros H. apply andb_true_iff in H. destruct H as [B Hb].
  apply andb_true_iff in B. destruct B as [B Hn].
  intros V w p0 h0 X0 h1 h o1 Ok o2 NP NS NG.
  pose proof B as B'. unfold base_ok in B'. destruct (assigned c) as [A|] eqn:HA;
    [|rewrite andb_false_r in B'; discriminate].
  apply andb_true_iff in B'. destruct B' as [Bf _]. apply andb_true_iff in Bf. destruct Bf as [Bf Bw].
  assert (P2 : o_par o2 = o_par o1).
  { unfold o2, fit_leaves, run_fit. destruct (exec _ _ _ _ _) as [[? ?] ?]. auto. }
  (* the first, successful, execution *)
  assert (E1 : exists l', exec w (o_par o1) (c_fit c) (o_att o1) (set [] "X" X0) = (o_att o2, l', Next)).
  { unfold fit_shows, run_fit in Ok. unfold o2, fit_leaves, run_fit.
    destruct (exec w (o_par o1) (c_fit c) (o_att o1) (set [] "X" X0)) as [[a' l'] q] eqn:E. simpl in *.
    exists l'. destruct q; try discriminate; auto. exfalso. eapply noret_exec; eauto. }
  destruct E1 as (l1' & E1).
  assert (K : forall o, o_par o = o_par o1 -> agree (used c) (o_att o2) (o_att o) ->
                (forall x, In x A -> bound (o_att o) x) -> no_success w c o h1 ->
                o_par (after w c o h1) = o_par o1 /\
                agree (used c) (o_att o2) (o_att (after w c o h1)) /\
                (forall x, In x A -> bound (o_att (after w c o h1)) x)).
  { clear NG h NS. induction h1 as [|q h1 IH]; intros o Pa Ag Bd NS; [split; auto|].
    rewrite after_cons. apply IH; [intros p Hp; apply (NP p); simpl; auto| | | |apply no_success_cons; auto].
    - destruct q as [p|X|m X|a]; simpl; auto.
      + exfalso. apply (NP p). simpl; auto.
      + unfold run_fit. destruct (exec w (o_par o) (c_fit c) (o_att o) (set [] "X" X)) as [[? ?] ?]. auto.
      + rewrite call_par; auto.
    - destruct q as [p|X|m X|a]; simpl; auto.
      + assert (F : fit_shows w c o X <> Self) by (apply (NS [] X h1); auto).
        unfold fit_shows in F. unfold run_fit in *. rewrite Pa in *.
        destruct (ba (used c) (c_fit c) k0 []) as [k'|] eqn:Ba; [|discriminate].
        destruct (ba_sound (used c) w (o_par o1) (o_att o2) (c_fit c) k0 [] k' (o_att o1) (o_att o)
                    (set [] "X" X0) (set [] "X" X) (o_att o2) l1' Ba) as (a2' & l2' & r & E2 & Q); [|exact E1|].
        { split; [simpl; tauto|]. split; [apply (locX X0 X)|]. split; [simpl; tauto|].
          split; [simpl; tauto|]. intros _ y Hy. left. apply Ag; auto. }
        rewrite E2 in *. simpl in F |- *. destruct r as [|v|x]; try congruence.
        simpl in Q. intros x' Hx. destruct (Q x' Hx) as [G|[_ G]]; auto.
      + intros x Hx. rewrite call_no_writes by auto. apply Ag; auto.
    - destruct q as [p|X|m X|a]; simpl; auto.
      + intros x Hx. apply (fit_bound w c o X Bf); auto.
      + intros x Hx. unfold bound. rewrite call_no_writes by auto. apply Bd; auto. }
  assert (BA : forall x, In x A -> bound (o_att o2) x) by (intros; eapply fit_assigned; eauto).
  destruct (K o2) as (K0 & K1 & K2); auto. { intros x _; auto. }
  set (o3 := after w c o2 h1) in *.
  assert (E3 : o3 = Build_obj (o_par o1) (o_att o3)) by (rewrite <- K0; destruct o3; auto).
  assert (E2 : o2 = Build_obj (o_par o1) (o_att o2)) by (rewrite <- P2; destruct o2; auto).
  rewrite E3. rewrite E2. apply (agree_seen w c A); auto.
Qed.

(* the names check_is_fitted looks for *)
Definition looked (c : cls) (l : option (list string)) : list string :=
  match l with None => filter fitted_name (writes (c_fit c)) | Some ns => ns end.

Definition check_not_fitted (c : cls) : bool :=
  some (da [] (c_fit c) [] ["X"]) && no_writes c &&
  forallb (fun m => match snd m with
                    | Seq (Fitted l) _ =>
                        some (ua (looked c l) (c_fit c) [] ["X"] false) &&
                        match l with Some [] => false | _ => true end
                    | _ => false
                    end) (c_meths c).

Lemma get_In {V} (s : store V) p : In p s -> get s (fst p) <> None.
Proof.
  induction s as [|[y v] s IH]; simpl; [tauto|]. intros [<-|H]; simpl.
  - rewrite String.eqb_refl. discriminate.
  - destruct (String.eqb (fst p) y); [discriminate|auto].
Qed.

Lemma check_not_fitted_sound c : check_not_fitted c = true -> raises_not_fitted c.
Proof.
  unfold check_not_fitted. intros H. apply andb_true_iff in H. destruct H as [H Hm].
  apply andb_true_iff in H. destruct H as [Hf Hw]. rewrite forallb_forall in Hm.
  intros V w p0 h m s X NS Lk. pose proof (lookup_In _ _ _ Lk) as Hin. apply Hm in Hin. simpl in Hin.
  destruct s as [|s1 s2| | | | | | |]; try discriminate. destruct s1; try discriminate.
  apply andb_true_iff in Hin. destruct Hin as [Hu Hl].
  assert (K : forall o, agree (looked c l) [] (o_att o) ->
                (forall p, In p (o_att o) -> In (fst p) (writes (c_fit c))) ->
                no_success w c o h ->
                agree (looked c l) [] (o_att (after w c o h)) /\
                (forall p, In p (o_att (after w c o h)) -> In (fst p) (writes (c_fit c)))).
  { clear NS. induction h as [|q h IH]; intros o Ag Nm NS; [split; auto|].
    rewrite after_cons. apply IH; [| |apply no_success_cons; auto].
    - destruct q as [p|X'|m' X'|a]; simpl; auto.
      + apply failing_fit_ua; auto. apply (NS [] X' h); auto.
      + intros x Hx. rewrite call_no_writes by auto. apply Ag; auto.
    - destruct q as [p|X'|m' X'|a]; simpl; auto.
      + unfold run_fit. destruct (exec _ _ _ _ _) as [[? ?] ?] eqn:E. simpl.
        intros p Hp. destruct (proj2 (proj2 (frame _ _ _ _ _ _ _ _ E)) p Hp); auto.
      + unfold run_call. destruct (lookup_meth (c_meths c) m') as [s'|] eqn:Lk'; simpl; auto.
        destruct (exec _ _ _ _ _) as [[? ?] ?] eqn:E. simpl.
        intros p Hp. destruct (proj2 (proj2 (frame _ _ _ _ _ _ _ _ E)) p Hp) as [K|K]; auto.
        apply lookup_In in Lk'. unfold no_writes in Hw. rewrite forallb_forall in Hw. apply Hw in Lk'.
        simpl in Lk'. destruct (writes s'); [destruct K|discriminate]. }
  destruct (K (new_obj p0)) as [K1 K2]; auto. { intros x _; auto. } { simpl. tauto. }
  set (o := after w c (new_obj p0) h) in *. unfold run_call. rewrite Lk. simpl.
  assert (C : check_fitted (o_att o) l = false).
  { destruct l as [ns|]; simpl.
    - destruct ns as [|n ns]; [discriminate|]. simpl in *. rewrite (K1 n); simpl; auto.
    - apply not_true_iff_false. intros T. apply existsb_exists in T. destruct T as (p & Hp & Fp).
      apply (get_In _ _ Hp). rewrite (K1 (fst p)); auto. simpl. apply filter_In; auto. }
  rewrite C. auto.
Qed.
