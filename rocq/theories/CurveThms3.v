(** C57: which exception StandardFeatures.fit raises. *)
From Coq Require Import String.
From Verif Require Import Np NpFacts Fl CurveModel CurveSpec CurveThms2.
Open Scope Z_scope.

Section Errors.
Context {V : Type}.
Variable is_array : V -> bool.

Lemma check_params_err s p e : check_params is_array s p = Err e <-> bad_argument is_array s p e.
Proof.
  induction p as [|[k v] t IH]; cbn [check_params].
  - split; [easy|]. intros (b & k & v & a & E & _). now destruct b.
  - destruct (String.eqb_spec s "average") as [->|N]; cbn [andb].
    + destruct (String.eqb_spec k "weights") as [->|N].
      * destruct (is_array v) eqn:A.
        -- rewrite IH. split.
           ++ intros (b & k & w & a & -> & H & K). exists (("weights"%string, v) :: b), k, w, a. split; auto. split; auto.
              intros k' v' [I|I]; [injection I as <- <-; auto|auto].
           ++ intros (b & k & w & a & E & H & K). destruct b as [|c b]; injection E as E1 E2.
              ** subst. destruct K as [[K _]|(_ & _ & K & _)]; [now destruct K|congruence].
              ** exists b, k, w, a. split; auto. split; auto. intros k' v' I. apply H. now right.
        -- split.
           ++ injection 1 as <-. exists [], "weights"%string, v, t. split; auto. split; [intros ? ? []|]. auto.
           ++ intros (b & k & w & a & E & H & K). destruct b as [|c b]; injection E as E1 E2.
              ** subst. destruct K as [[K _]|(_ & _ & _ & ->)]; [now destruct K|auto].
              ** subst c. destruct (H _ _ (or_introl eq_refl)) as (_ & _ & ?). congruence.
      * split.
        ++ injection 1 as <-. exists [], k, v, t. split; auto. split; [intros ? ? []|]. left. split; auto. now intros [_ ?].
        ++ intros (b & k' & w & a & E & H & K). destruct b as [|c b]; injection E as E1 E2.
           ** subst. destruct K as [[_ ->]|(_ & ? & _)]; [auto|easy].
           ** subst c. now destruct (H _ _ (or_introl eq_refl)) as (_ & ? & _).
    + split.
      ++ injection 1 as <-. exists [], k, v, t. split; auto. split; [intros ? ? []|]. left. split; auto. now intros [? _].
      ++ intros (b & k' & w & a & E & H & K). destruct b as [|c b]; injection E as E1 E2.
         ** subst. destruct K as [[_ ->]|(? & _)]; [auto|easy].
         ** subst c. now destruct (H _ _ (or_introl eq_refl)) as (? & _).
Qed.

Lemma loop_err (l : list (option (func V))) ps e :
  zlen l = zlen ps ->
  (effective_loop is_array (combine l ps) = Err e <-> bad_channel is_array (FMany l) (PMany ps) e).
Proof.
  revert ps; induction l as [|f l IH]; intros [|p ps] L; cbn [combine effective_loop].
  - split; [easy|]. intros (j & s & p & [G _] & _). apply Znth_Some_lt in G. cbn in G. lia.
  - rewrite zlen_cons in L. cbn in L. pose proof (zlen_nonneg ps). unfold zlen in L at 1. cbn in L. lia.
  - rewrite zlen_cons in L. pose proof (zlen_nonneg l). unfold zlen in L at 2. cbn in L. lia.
  - rewrite !zlen_cons in L. assert (L' : zlen l = zlen ps) by lia. specialize (IH ps L').
    assert (SH : forall e, (forall s, f = Some (Name s) -> exists q, p = Some q /\ allowed is_array s q) ->
      (bad_channel is_array (FMany (f :: l)) (PMany (p :: ps)) e <-> bad_channel is_array (FMany l) (PMany ps) e)).
    { clear IH e. intros e HF. split.
      - intros (j & s & q & [G1 G2] & B & M). pose proof (Znth_Some_lt _ _ _ G1) as Bj.
        destruct (Z.eq_dec j 0) as [->|N].
        + cbn in G1, G2. injection G1 as ->. injection G2 as ->. destruct (HF _ eq_refl) as (q' & -> & A).
          apply check_params_err in M. rewrite (proj2 (check_params_iff is_array _ _) A) in M. easy.
        + exists (j - 1), s, q. rewrite Znth_cons in G1 by lia; rewrite Znth_cons in G2 by lia. split; [split; auto|]. split; auto.
          intros j' s' p' Hj [G1' G2']. pose proof (Znth_Some_lt _ _ _ G1') as Bj'. apply (B (j' + 1) s' p'); [lia|].
          split; rewrite Znth_cons by lia; replace (j' + 1 - 1) with j' by lia; auto.
      - intros (j & s & q & [G1 G2] & B & M). pose proof (Znth_Some_lt _ _ _ G1) as Bj.
        exists (j + 1), s, q. split; [split; rewrite Znth_cons by lia; replace (j + 1 - 1) with j by lia; auto|].
        split; auto. intros j' s' p' Hj [G1' G2']. pose proof (Znth_Some_lt _ _ _ G1') as Bj'.
        destruct (Z.eq_dec j' 0) as [->|N].
        + cbn in G1', G2'. injection G1' as ->. injection G2' as ->. now apply HF.
        + rewrite Znth_cons in G1' by lia; rewrite Znth_cons in G2' by lia. apply (B (j' - 1) s' p'); [lia|]. now split. }
    assert (HD : forall s, f = Some (Name s) -> forall e', (match p with None => e' = AttributeError | Some q => bad_argument is_array s q e' end) ->
       bad_channel is_array (FMany (f :: l)) (PMany (p :: ps)) e').
    { intros s -> e' M. exists 0, s, p. split; [split; reflexivity|]. split; auto.
      intros j' s' p' Hj [G _]. pose proof (Znth_Some_lt _ _ _ G). lia. }
    assert (HU : forall s, f = Some (Name s) -> forall e0 e', (match p with None => e0 = AttributeError | Some q => bad_argument is_array s q e0 end) ->
       bad_channel is_array (FMany (f :: l)) (PMany (p :: ps)) e' -> e' = e0).
    { intros s -> e0 e' M0 (j & s' & q & [G1 G2] & B & M). pose proof (Znth_Some_lt _ _ _ G1) as Bj.
      destruct (Z.eq_dec j 0) as [->|N].
      - cbn in G1, G2. injection G1 as <-. injection G2 as <-. destruct p as [p|]; [|congruence].
        apply check_params_err in M, M0. congruence.
      - destruct (B 0 s p) as (q' & -> & A); [lia|split; reflexivity|].
        apply check_params_err in M0. rewrite (proj2 (check_params_iff is_array _ _) A) in M0. easy. }
    destruct f as [[s|g]|]; cbn [bind].
    + destruct p as [p|]; cbn [bind].
      * destruct (check_params is_array s p) as [[]|e'] eqn:C; cbn [bind].
        -- rewrite SH.
           2:{ intros s' Es. injection Es as <-. exists p. split; auto. now apply check_params_iff. }
           rewrite <- IH. destruct (effective_loop is_array (combine l ps)); cbn [bind]; split; easy.
        -- apply check_params_err in C. split.
           ++ injection 1 as <-. now apply (HD s).
           ++ intro B. f_equal. symmetry. now apply (HU s eq_refl e' e).
      * split; [injection 1 as <-; now apply (HD s)|]. intro B. f_equal. symmetry. now apply (HU s eq_refl AttributeError e).
    + rewrite SH by easy. rewrite <- IH. destruct (effective_loop is_array (combine l ps)); cbn [bind]; split; easy.
    + rewrite SH by easy. rewrite <- IH. destruct (effective_loop is_array (combine l ps)); cbn [bind]; split; easy.
Qed.

(** StandardFeatures.fit raises: ValueError for an unknown name; else TypeError when a list comes with
    one dictionary or one function with a list; else ValueError for wrong lengths; else the
    exception for the first channel of which the arguments are refused. *)
Theorem features_fit_errors fa pa n e : 0 <= n ->
  (features_fit is_array fa pa n = Err e <->
   ((exists s, names fa s /\ ~ In s available) /\ e = ValueError) \/
   ((forall s, names fa s -> In s available) /\
    ((kinds_differ fa pa /\ e = TypeError) \/
     (~ kinds_differ fa pa /\
      ((wrong_lengths fa pa n /\ e = ValueError) \/
       (~ wrong_lengths fa pa n /\ bad_channel is_array fa pa e)))))).
Proof.
  intro Hn. unfold features_fit, validate_features. destruct fa as [[s|g]|l].
  - cbn [names]. pose proof (is_available_iff s) as A. destruct (is_available s) eqn:Es; cbn [bind].
    2:{ assert (NI : ~ In s available) by (intro H; apply A in H; congruence). split.
        - injection 1 as <-. left. split; eauto.
        - intros [[_ ->]|[H _]]; auto. now destruct NI; apply H. }
    assert (I : In s available) by now apply A.
    assert (NU : ~ exists s', @Name V s = Name s' /\ ~ In s' available) by (intros (s' & H & N); now injection H as <-).
    assert (AL : forall s', @Name V s = Name s' -> In s' available) by (intros s' H; now injection H as <-).
    destruct pa as [|p|ps]; cbn [bind kinds_differ wrong_lengths].
    + split; [easy|]. intros [[H _]|[_ [[[] _]|[_ [[[] _]|[_ B]]]]]]; [easy|]. now destruct B as (j & s' & q & G & _).
    + pose proof (check_params_err s p) as C. destruct (check_params is_array s p) as [[]|e'] eqn:Ec; cbn [bind].
      * split; [easy|]. intros [[H _]|[_ [[[] _]|[_ [[[] _]|[_ B]]]]]]; [easy|].
        destruct B as (j & s' & q & (_ & G & ->) & _ & M). injection G as <-. apply C in M. easy.
      * split.
        -- injection 1 as <-. right. split; auto. right. split; auto. right. split; auto.
           exists 0, s, (Some p). split; [cbn; auto|]. split; [|now apply C]. intros j' s' p' Hj (? & _). lia.
        -- intros [[H _]|[_ [[[] _]|[_ [[[] _]|[_ B]]]]]]; [easy|].
           destruct B as (j & s' & q & (_ & G & ->) & _ & M). injection G as <-. pose proof (proj2 (C e) M) as Q. now injection Q as <-.
    + split; [injection 1 as <-; auto 6|]. intros [[H _]|[_ [[_ ->]|[[] _]]]]; auto; easy.
  - cbn [names bind].
    destruct pa as [|p|ps]; cbn [bind kinds_differ wrong_lengths].
    + split; [easy|]. intros [[(s & ? & _) _]|[_ [[[] _]|[_ [[[] _]|[_ B]]]]]]; [easy|]. now destruct B as (j & s' & q & G & _).
    + split; [easy|]. intros [[(s & ? & _) _]|[_ [[[] _]|[_ [[[] _]|[_ B]]]]]]; [easy|]. now destruct B as (j & s' & q & (_ & G & _) & _).
    + split; [injection 1 as <-; right; split; [easy|auto]|]. intros [[(s & ? & _) _]|[_ [[_ ->]|[[] _]]]]; auto; easy.
  - cbn [names].
    assert (A : forallb (fun f => match f with Some (Name s) => is_available s | _ => true end) l = true <->
      forall s, In (Some (Name s)) l -> In s available).
    { rewrite forallb_forall. split.
      - intros H s I. apply is_available_iff. exact (H _ I).
      - intros H [[s|g]|] I; auto. now apply is_available_iff, H. }
    destruct (forallb _ l) eqn:EF; cbn [bind].
    2:{ assert (NI : exists s, In (Some (Name s)) l /\ ~ In s available).
        { clear A. induction l as [|[[s|g]|] l IH]; cbn [forallb andb] in EF; [easy| | |].
          - destruct (is_available s) eqn:Es; cbn [andb] in EF.
            + destruct (IH EF) as (s' & I & N). exists s'. split; auto. now right.
            + exists s. split; [now left|]. intro H. apply is_available_iff in H. congruence.
          - destruct (IH EF) as (s' & I & N). exists s'. split; auto. now right.
          - destruct (IH EF) as (s' & I & N). exists s'. split; auto. now right. }
        split; [injection 1 as <-; auto|]. intros [[_ ->]|[H _]]; auto. destruct NI as (s & I & N). now destruct N; apply H. }
    assert (AL := proj1 A eq_refl).
    assert (NU : ~ exists s', In (Some (Name s')) l /\ ~ In s' available) by (intros (s' & H & N); auto).
    destruct pa as [|p|ps]; cbn [bind kinds_differ wrong_lengths].
    + destruct (Z.eqb_spec (zlen l) n) as [L|L]; cbn [negb bind].
      2:{ split; [injection 1 as <-; auto 8|]. intros [[H _]|[_ [[[] _]|[_ [[_ ->]|[H _]]]]]]; auto; try easy. now destruct H; left. }
      assert (EL : exists r, effective_loop is_array (combine l (repeat (Some []) (Z.to_nat n))) = Ok r).
      { eexists. apply effective_loop_ok. split; [reflexivity|]. intros s p H. apply in_combine_r, repeat_spec in H. subst.
        exists []. split; auto. intros ? ? []. }
      destruct EL as [r ->]. cbn [bind]. split; [easy|].
      intros [[H _]|[_ [[[] _]|[_ [[[H|[]] _]|[_ B]]]]]]; [easy|easy|]. now destruct B as (j & s' & q & G & _).
    + split; [injection 1 as <-; auto 6|]. intros [[H _]|[_ [[_ ->]|[H _]]]]; auto; try easy.
    + destruct (Z.eqb_spec (zlen l) n) as [L|L]; cbn [negb bind].
      2:{ split; [injection 1 as <-; auto 8|]. intros [[H _]|[_ [[[] _]|[_ [[_ ->]|[H _]]]]]]; auto; try easy. now destruct H; left. }
      destruct (Z.eqb_spec (zlen ps) n) as [L'|L']; cbn [negb bind].
      2:{ split; [injection 1 as <-; auto 8|]. intros [[H _]|[_ [[[] _]|[_ [[_ ->]|[H _]]]]]]; auto; try easy. now destruct H; right. }
      pose proof (loop_err l ps e ltac:(lia)) as C. split.
      * intro H. right. split; auto. right. split; auto. right. split; [intros [?|?]; lia|]. apply C.
        destruct (effective_loop is_array (combine l ps)); [easy|cbn in H; now injection H as ->].
      * intros [[H _]|[_ [[[] _]|[_ [[[H|H] _]|[_ B]]]]]]; try easy. apply C in B. now rewrite B.
Qed.
End Errors.

(** All kinds of errors occur. *)
Definition yes (_ : unit) := true.
Example features_fit_error_cases :
  features_fit yes (FOne (Name "mode")) PNone 2 = Err ValueError /\
  features_fit yes (FMany [Some (Name "max")]) (PDict []) 2 = Err TypeError /\
  features_fit yes (FMany [Some (Name "max")]) PNone 2 = Err ValueError /\
  features_fit yes (FMany [None; Some (Name "average")]) (PMany [None; Some [("weights", tt); ("axis", tt)]])%string 2 = Err KeyError /\
  features_fit noarr (FMany [None; Some (Name "average")]) (PMany [None; Some [("weights", tt); ("axis", tt)]])%string 2 = Err TypeError.
Proof. repeat split. Qed.

Print Assumptions features_fit_errors.
