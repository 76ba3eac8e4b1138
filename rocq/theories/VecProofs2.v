(** Lemmas for sampling grids (_bin). *)
From Coq Require Import Permutation Sorted.
From Verif Require Import Np NpFacts Fl FlFacts DiagTypes DiagModel DiagSpec DiagProofs DiagProofs2
  VecModel VecSpec SliceFacts VecProofs.
Open Scope Z_scope.

Lemma fold_Qcmin t : forall x, let v := fold_left Qcmin t x in
  In v (x :: t) /\ forall w, In w (x :: t) -> (v <= w)%Qc.
Proof.
  induction t as [|y t IH]; intros x v.
  - split; [now left|]. intros w [<-|[]]. subst v. simpl. qlra.
  - subst v. cbn [fold_left]. destruct (IH (Qcmin x y)) as [A B]. cbv zeta in A, B. split.
    + destruct A as [A|A]; [|right; now right]. unfold Qcmin in A at 1. destruct (Qcleb x y); [left|right; left]; exact A.
    + assert (H := B _ (or_introl eq_refl)). set (v := fold_left Qcmin t (Qcmin x y)) in *. unfold Qcmin in H.
      intros w [<-|[<-|Hw]]; [| |apply B; now right]; destruct (Qcleb_spec x y); qneg; qlra.
Qed.
Lemma fold_Qcmax t : forall x, let v := fold_left Qcmax t x in
  In v (x :: t) /\ forall w, In w (x :: t) -> (w <= v)%Qc.
Proof.
  induction t as [|y t IH]; intros x v.
  - split; [now left|]. intros w [<-|[]]. subst v. simpl. qlra.
  - subst v. cbn [fold_left]. destruct (IH (Qcmax x y)) as [A B]. cbv zeta in A, B. split.
    + destruct A as [A|A]; [|right; now right]. unfold Qcmax in A at 1. destruct (Qcleb x y); [right; left|left]; exact A.
    + assert (H := B _ (or_introl eq_refl)). set (v := fold_left Qcmax t (Qcmax x y)) in *. unfold Qcmax in H.
      intros w [<-|[<-|Hw]]; [| |apply B; now right]; destruct (Qcleb_spec x y); qneg; qlra.
Qed.
Lemma q_min_ok l : l <> [] -> exists v, q_min l = Ok v /\ is_least v (fun w => In w l).
Proof. destruct l as [|x t]; [easy|]. intros _. exists (fold_left Qcmin t x). split; [reflexivity|]. exact (fold_Qcmin t x). Qed.
Lemma q_max_ok l : l <> [] -> exists v, q_max l = Ok v /\ is_greatest v (fun w => In w l).
Proof. destruct l as [|x t]; [easy|]. intros _. exists (fold_left Qcmax t x). split; [reflexivity|]. exact (fold_Qcmax t x). Qed.

Lemma is_least_ext v P P' : (forall w, P w <-> P' w) -> is_least v P -> is_least v P'.
Proof. intros E [A B]. split; [now apply E|]. intros w Hw. apply B. now apply E. Qed.
Lemma is_greatest_ext v P P' : (forall w, P w <-> P' w) -> is_greatest v P -> is_greatest v P'.
Proof. intros E [A B]. split; [now apply E|]. intros w Hw. apply B. now apply E. Qed.
Lemma is_least_or v w P Q : is_least v P -> is_least w Q -> is_least (Qcmin v w) (fun x => P x \/ Q x).
Proof.
  intros [A B] [C D]. unfold Qcmin. split; [destruct (Qcleb v w); [left|right]; assumption|].
  intros x [Hx|Hx]; [apply B in Hx|apply D in Hx]; destruct (Qcleb_spec v w); qneg; qlra.
Qed.
Lemma is_greatest_or v w P Q : is_greatest v P -> is_greatest w Q -> is_greatest (Qcmax v w) (fun x => P x \/ Q x).
Proof.
  intros [A B] [C D]. unfold Qcmax. split; [destruct (Qcleb v w); [right|left]; assumption|].
  intros x [Hx|Hx]; [apply B in Hx|apply D in Hx]; destruct (Qcleb_spec v w); qneg; qlra.
Qed.
Lemma is_least_unique v w P : is_least v P -> is_least w P -> v = w.
Proof. intros [A B] [C D]. apply Qcle_antisym; auto. Qed.
Lemma is_greatest_unique v w P : is_greatest v P -> is_greatest w P -> v = w.
Proof. intros [A B] [C D]. apply Qcle_antisym; auto. Qed.

Definition death_value (q : fl) (X : list diagram) (v : Qc) : Prop :=
  exists x p, In x X /\ In p (rows_of q x) /\ pd p = Fin v.
Lemma rows_of_In q x p : In p (rows_of q x) -> In p x.
Proof. intros H. apply filter_In in H. tauto. Qed.
Lemma in_pts q X b d : finite_points X -> In (b, d) (concat (map (fun x => to_q (rows_of q x)) X)) <->
  exists x p, In x X /\ In p (rows_of q x) /\ pb p = Fin b /\ pd p = Fin d.
Proof.
  intros HF. rewrite in_concat. split.
  - intros [l [Hl Hp]]. apply in_map_iff in Hl. destruct Hl as [x [<- Hx]]. apply in_map_iff in Hp. destruct Hp as [p [E Hp]].
    exists x, p. destruct (HF x p Hx (rows_of_In _ _ _ Hp)) as [b' [d' [E1 [E2 _]]]]. rewrite E1, E2 in E. cbn in E.
    assert (b' = b) by congruence. assert (d' = d) by congruence. subst. auto.
  - intros [x [p [Hx [Hp [E1 E2]]]]]. exists (to_q (rows_of q x)). split; [apply in_map_iff; eauto|].
    apply in_map_iff. exists p. rewrite E1, E2. auto.
Qed.

Lemma bin_range_ok pi X q : X <> [] -> finite_points X -> balanced q X -> rows_of q (hd [] X) <> [] ->
  exists lo hi, bin_range pi X q = Ok (lo, hi) /\
    (pi = true -> is_least (fst lo) (birth_value q X) /\ is_greatest (fst hi) (birth_value q X) /\
                  is_least (snd lo) (lifetime_value q X) /\ is_greatest (snd hi) (lifetime_value q X)) /\
    (pi = false -> is_least (fst lo) (coordinate q X) /\ is_greatest (fst hi) (coordinate q X) /\
                  snd lo = fst lo /\ snd hi = fst hi).
Proof.
  intros HX HF HB HR. unfold bin_range.
  rewrite (subdiagrams_ok X [q]) by (try easy; intros q' [<-|[]]; assumption). cbn [bind map concat].
  rewrite map_map. rewrite (map_ext _ (fun x => to_q (rows_of q x))) by (intros; now rewrite app_nil_r).
  set (pts := concat (map (fun x => to_q (rows_of q x)) X)).
  assert (Hp : forall b d, In (b, d) pts <-> exists x p, In x X /\ In p (rows_of q x) /\ pb p = Fin b /\ pd p = Fin d) by (intros; now apply in_pts).
  assert (Hne : pts <> []).
  { destruct X as [|x0 X]; [easy|]. cbn [hd] in HR. subst pts. cbn [map concat]. destruct (rows_of q x0); [easy|]. discriminate. }
  assert (HBv : forall w, In w (map fst pts) <-> birth_value q X w).
  { intros w. rewrite in_map_iff. split.
    - intros [[b d] [<- H]]. apply Hp in H. destruct H as [x [p H]]. exists x, p. tauto.
    - intros [x [p [A [B C]]]]. destruct (HF x p A (rows_of_In _ _ _ B)) as [b' [d [E1 [E2 _]]]].
      exists (w, d). split; [reflexivity|]. apply Hp. exists x, p. auto. }
  assert (HDv : forall w, In w (map snd pts) <-> death_value q X w).
  { intros w. rewrite in_map_iff. split.
    - intros [[b d] [<- H]]. apply Hp in H. destruct H as [x [p H]]. exists x, p. tauto.
    - intros [x [p [A [B C]]]]. destruct (HF x p A (rows_of_In _ _ _ B)) as [b' [d [E1 [E2 _]]]].
      exists (b', w). split; [reflexivity|]. apply Hp. exists x, p. auto. }
  assert (HLv : forall w, In w (map snd (map (fun p => (fst p, (snd p - fst p)%Qc)) pts)) <-> lifetime_value q X w).
  { intros w. rewrite map_map, in_map_iff. split.
    - intros [[b d] [<- H]]. apply Hp in H. destruct H as [x [p H]]. exists x, p, b, d. tauto.
    - intros [x [p [b [d [A [B [C [D E]]]]]]]]. exists (b, d). split; [now subst|]. apply Hp. exists x, p. auto. }
  assert (Hf : map fst (map (fun p : Qc * Qc => (fst p, (snd p - fst p)%Qc)) pts) = map fst pts) by (rewrite map_map; reflexivity).
  assert (N1 : map fst pts <> []) by (destruct pts; [easy|discriminate]).
  assert (N2 : map snd pts <> []) by (destruct pts; [easy|discriminate]).
  destruct pi.
  - rewrite Hf. assert (N3 : map snd (map (fun p : Qc * Qc => (fst p, (snd p - fst p)%Qc)) pts) <> []) by (destruct pts; [easy|discriminate]).
    destruct (q_min_ok _ N1) as [a [-> A]]. destruct (q_min_ok _ N3) as [b [-> B]].
    destruct (q_max_ok _ N1) as [c [-> C]]. destruct (q_max_ok _ N3) as [d [-> D]]. cbn [bind].
    exists (a, b), (c, d). split; [reflexivity|]. split; [|discriminate]. intros _. cbn [fst snd].
    repeat split; try (now apply (is_least_ext _ _ _ HBv)); try (now apply (is_greatest_ext _ _ _ HBv));
      try (now apply (is_least_ext _ _ _ HLv)); try (now apply (is_greatest_ext _ _ _ HLv)).
  - destruct (q_min_ok _ N1) as [a [-> A]]. destruct (q_min_ok _ N2) as [b [-> B]].
    destruct (q_max_ok _ N1) as [c [-> C]]. destruct (q_max_ok _ N2) as [d [-> D]]. cbn [bind].
    exists (Qcmin a b, Qcmin a b), (Qcmax c d, Qcmax c d). split; [reflexivity|]. split; [discriminate|]. intros _. cbn [fst snd].
    assert (HC : forall w, In w (map fst pts) \/ In w (map snd pts) <-> coordinate q X w).
    { intros w. rewrite HBv, HDv. unfold birth_value, death_value, coordinate. split.
      - intros [[x [p H]]|[x [p H]]]; exists x, p; tauto.
      - intros [x [p [H1 [H2 [H|H]]]]]; [left|right]; exists x, p; auto. }
    split; [|split; [|split; reflexivity]].
    + eapply is_least_ext; [exact HC|]. now apply is_least_or.
    + eapply is_greatest_ext; [exact HC|]. now apply is_greatest_or.
Qed.

Lemma linspace_ok lo hi n : 1 <= n -> is_grid lo hi n (fst (linspace lo hi n)) (snd (linspace lo hi n)).
Proof.
  intros Hn. unfold linspace. destruct (Z.eqb_spec n 1) as [->|Hn1]; cbn [fst snd].
  - split; [reflexivity|]. split; [apply Znth_0|]. split; [reflexivity|lia].
  - assert (E : forall i, 0 <= i < n -> Znth (tabZ n (fun i => (lo + qz i * ((hi - lo) / qz (n - 1)))%Qc)) i = Some (lo + qz i * ((hi - lo) / qz (n - 1)))%Qc)
      by (intros; now rewrite Znth_tabZ).
    assert (N : qz (n - 1) <> 0%Qc) by (intros F; rewrite <- qz_0 in F; apply qz_inj in F; lia).
    split; [rewrite zlen_tabZ; lia|]. split; [rewrite E by lia; f_equal; rewrite qz_0; ring|]. split; [lia|]. intros _.
    split; [reflexivity|]. split; [|exact E]. rewrite E by lia. f_equal. field. exact N.
Qed.

Lemma Forall2_map_combine {A B C} (R : A -> C -> Prop) (g : A * B -> C) l l' :
  Forall2 (fun a b => R a (g (a, b))) l l' -> Forall2 R l (map g (combine l l')).
Proof. induction 1; cbn; constructor; auto. Qed.
Lemma Forall2_mono {A B} (R R' : A -> B -> Prop) l l' : (forall a b, R a b -> R' a b) -> Forall2 R l l' -> Forall2 R' l l'.
Proof. intros H; induction 1; constructor; auto. Qed.
Lemma Forall2_map_right {A B C} (R : A -> C -> Prop) (f : B -> C) l l' : Forall2 (fun a b => R a (f b)) l l' -> Forall2 R l (map f l').
Proof. induction 1; cbn; constructor; auto. Qed.
Lemma Forall2_In_l {A B} (R : A -> B -> Prop) l l' : Forall2 R l l' -> Forall2 (fun a b => In a l /\ R a b) l l'.
Proof.
  induction 1 as [|a b l l' H F IH]; constructor; [split; [now left|assumption]|].
  eapply Forall2_mono; [|exact IH]. cbn. intros x y [H1 H2]. split; [now right|assumption].
Qed.

Lemma bin_axes_ok pi n dims X : 1 <= n -> X <> [] -> dims <> [] -> finite_points X ->
  (forall q, In q dims -> balanced q X /\ rows_of q (hd [] X) <> []) ->
  exists b, bin_axes pi n dims X = Ok b /\
    Forall2 (fun q e => fst e = q /\
      (pi = true -> grid_of (fun q => birth_value q X) dims n q (fst (fst (snd e))) (snd (fst (snd e))) /\
                    grid_of (fun q => lifetime_value q X) dims n q (fst (snd (snd e))) (snd (snd (snd e)))) /\
      (pi = false -> grid_of (fun q => coordinate q X) dims n q (fst (fst (snd e))) (snd (fst (snd e))) /\
                     snd (snd e) = fst (snd e))) dims b.
Proof.
  intros Hn HX Hd HF H. unfold bin_axes.
  assert (ER : exists rs, mapM (bin_range pi X) dims = Ok rs /\ Forall2 (fun q r => bin_range pi X q = Ok r) dims rs).
  { clear Hd. induction dims as [|q dims IH]; [exists []; split; [reflexivity|constructor]|].
    destruct (H q (or_introl eq_refl)) as [H1 H2]. destruct (bin_range_ok pi X q HX HF H1 H2) as [lo [hi [E _]]].
    destruct IH as [rs [E1 E2]]; [intros; apply H; now right|]. exists ((lo, hi) :: rs). cbn [mapM]. rewrite E, E1. cbn [bind].
    split; [reflexivity|]. now constructor. }
  destruct ER as [rs [-> F]]. cbn [bind].
  assert (Hrs : rs <> []) by (intros E; rewrite E in F; inversion F; now subst).
  destruct (q_max_ok (map (fun r => fst (snd r)) rs)) as [g0 [-> G0]]; [destruct rs; [easy|discriminate]|].
  destruct (q_max_ok (map (fun r => snd (snd r)) rs)) as [g1 [-> G1]]; [destruct rs; [easy|discriminate]|]. cbn [bind].
  eexists. split; [reflexivity|].
  assert (GG : forall (P : fl -> Qc -> Prop) (sel : (Qc * Qc) * (Qc * Qc) -> Qc) g,
     (forall q r, In q dims -> bin_range pi X q = Ok r -> is_greatest (sel r) (P q)) ->
     is_greatest g (fun w => In w (map sel rs)) -> is_greatest g (fun v => exists q', In q' dims /\ P q' v)).
  { intros P sel g HP [A B]. split.
    - apply in_map_iff in A. destruct A as [r [<- Hr]]. destruct (In_Znth _ _ Hr) as [i [Hi Er]].
      pose proof (Forall2_zlen _ _ _ F) as EL. destruct (Znth_ex dims i ltac:(lia)) as [q Eq].
      exists q. assert (Hq : In q dims) by (eapply Znth_In; eassumption). split; [assumption|].
      apply (HP q r Hq). exact (Forall2_Znth _ _ _ i _ _ F Eq Er).
    - intros w [q [Hq Hw]]. destruct (In_Znth _ _ Hq) as [i [Hi Eq]]. pose proof (Forall2_zlen _ _ _ F) as EL.
      destruct (Znth_ex rs i ltac:(lia)) as [r Er]. assert (E : bin_range pi X q = Ok r) by (exact (Forall2_Znth _ _ _ i _ _ F Eq Er)).
      destruct (HP q r Hq E) as [_ D]. apply D in Hw. assert (sel r <= g)%Qc.
      { apply B. apply in_map. eapply Znth_In; eassumption. } qlra. }
  assert (RR : forall P q lo hi g, is_least lo (P q) -> is_greatest hi (P q) ->
     is_greatest g (fun v => exists q', In q' dims /\ P q' v) ->
     grid_of P dims n q (fst (linspace lo (if Qceqb hi lo then g else hi) n)) (snd (linspace lo (if Qceqb hi lo then g else hi) n))).
  { intros P q lo hi g A B C. exists lo, (if Qceqb hi lo then g else hi). split; [|now apply linspace_ok].
    split; [assumption|]. exists hi. split; [assumption|]. destruct (Qceqb_spec hi lo) as [E|E]; [right|left]; auto. }
  assert (SP : forall q lo hi, In q dims -> bin_range pi X q = Ok (lo, hi) ->
    (pi = true -> is_least (fst lo) (birth_value q X) /\ is_greatest (fst hi) (birth_value q X) /\
                  is_least (snd lo) (lifetime_value q X) /\ is_greatest (snd hi) (lifetime_value q X)) /\
    (pi = false -> is_least (fst lo) (coordinate q X) /\ is_greatest (fst hi) (coordinate q X) /\
                  snd lo = fst lo /\ snd hi = fst hi)).
  { intros q lo hi Hq E. destruct (H q Hq) as [H1 H2]. destruct (bin_range_ok pi X q HX HF H1 H2) as [lo' [hi' [E' S]]].
    assert (lo' = lo) by congruence. assert (hi' = hi) by congruence. subst. exact S. }
  assert (FF : Forall2 (fun q r => In q dims /\ bin_range pi X q = Ok r) dims rs).
  { now apply Forall2_In_l. }
  assert (GG0 : pi = true -> is_greatest g0 (fun v => exists q', In q' dims /\ birth_value q' X v)).
  { intros Hpi. apply (GG (fun q => birth_value q X) (fun r => fst (snd r))); [|exact G0].
    intros q [lo hi] Hq E. apply (SP _ _ _ Hq E); assumption. }
  assert (GG1 : pi = true -> is_greatest g1 (fun v => exists q', In q' dims /\ lifetime_value q' X v)).
  { intros Hpi. apply (GG (fun q => lifetime_value q X) (fun r => snd (snd r))); [|exact G1].
    intros q [lo hi] Hq E. apply (SP _ _ _ Hq E); assumption. }
  assert (GGc : pi = false -> is_greatest g0 (fun v => exists q', In q' dims /\ coordinate q' X v)).
  { intros Hpi. apply (GG (fun q => coordinate q X) (fun r => fst (snd r))); [|exact G0].
    intros q [lo hi] Hq E. apply (SP _ _ _ Hq E); assumption. }
  assert (Gsame : pi = false -> g1 = g0).
  { intros Hpi. assert (E : map (fun r => snd (snd r)) rs = map (fun r : (Qc * Qc) * (Qc * Qc) => fst (snd r)) rs).
    { apply map_ext_in. intros [lo hi] Hr. destruct (In_Znth _ _ Hr) as [i [Hi Er]].
      pose proof (Forall2_zlen _ _ _ F) as EL. destruct (Znth_ex dims i ltac:(lia)) as [q Eq].
      assert (Hq : In q dims) by (eapply Znth_In; eassumption).
      assert (E : bin_range pi X q = Ok (lo, hi)) by (exact (Forall2_Znth _ _ _ i _ _ F Eq Er)).
      cbn [fst snd]. apply (SP q lo hi Hq E). assumption. }
    rewrite E in G1. eapply is_greatest_unique; eassumption. }
  apply Forall2_map_combine. eapply Forall2_mono; [|exact FF]. intros q [lo hi] [Hq E]. cbn [fst snd]. split; [reflexivity|].
  destruct (SP q lo hi Hq E) as [S1 S2]. split; intros Hpi.
  - destruct (S1 Hpi) as [A [B [C D']]]. split.
    + apply (RR (fun q => birth_value q X)); auto.
    + apply (RR (fun q => lifetime_value q X)); auto.
  - destruct (S2 Hpi) as [A [B [C D']]]. split.
    + apply (RR (fun q => coordinate q X)); auto.
    + rewrite C, D', (Gsame Hpi). reflexivity.
Qed.
