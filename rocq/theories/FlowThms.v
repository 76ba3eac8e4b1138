(** C77: what a time series pipeline computes. *)
From Coq Require Import Reals String Lra Permutation Sorting.Sorted.
From Verif Require Import Np NpFacts Fl FlFacts DiagTypes DiagModel DiagSpec DiagProofs DiagProofs2 DiagProofs3 DiagThms
  VecModel VecSpec RNp MetricSpec FeatModel FeatSpec FeatThms HomModel HomSpec HomProofs TSModel TSSpec TSThms
  PipeModel PipeSpec PipeProofs PipeThms FlowModel FlowSpec.
Open Scope Z_scope.

(** ** Increasing lists are determined by their elements *)
Lemma flt_irrefl x : flt x x = false.
Proof. destruct x; try reflexivity. cbn. destruct (Qcltb_spec q q); [exfalso; qlra|reflexivity]. Qed.
Lemma increasing_head_notin x l : increasing (x :: l) -> ~ In x l.
Proof. intros H I. apply increasing_inv in H as [_ H]. specialize (H x I). now rewrite flt_irrefl in H. Qed.
Lemma increasing_unique l : forall l', increasing l -> increasing l' -> (forall q, In q l <-> In q l') -> l = l'.
Proof.
  induction l as [|x l IH]; intros [|x' l'] H H' E.
  - reflexivity.
  - destruct (proj2 (E x') (or_introl eq_refl)).
  - destruct (proj1 (E x) (or_introl eq_refl)).
  - pose proof (increasing_head_notin _ _ H) as N. pose proof (increasing_head_notin _ _ H') as N'.
    apply increasing_inv in H as [H G]. apply increasing_inv in H' as [H' G'].
    assert (x = x') as ->.
    { destruct (proj1 (E x) (or_introl eq_refl)) as [?|I]; auto. destruct (proj2 (E x') (or_introl eq_refl)) as [?|I']; auto.
      specialize (G _ I'). specialize (G' _ I). destruct x as [| |q|], x' as [| |q'|]; cbn in G, G'; try easy.
      destruct (Qcltb_spec q q'), (Qcltb_spec q' q); try easy. exfalso; qlra. }
    f_equal. apply IH; auto. intro q. split; intro I.
    + destruct (proj1 (E q) (or_intror I)) as [->|]; auto. easy.
    + destruct (proj2 (E q) (or_intror I)) as [->|]; auto. easy.
Qed.
Lemma sorted_increasing dims sorted : sorted_dimensions dims sorted -> increasing (map fz sorted).
Proof.
  intros [_ H] i j a b B Ha Hb. rewrite Znth_map in Ha, Hb. destruct (Znth sorted i) eqn:Ei; [|easy]. destruct (Znth sorted j) eqn:Ej; [|easy].
  cbn in Ha, Hb. injection Ha as <-. injection Hb as <-. rewrite flt_fz. specialize (H i j _ _ B Ei Ej). lia.
Qed.

(** ** The diagrams *)

Section Diagrams.
Context {C : Type}.
Variable junk : pt.
Variable ripser : Z -> fl -> C -> list (list (fl * fl)).
Variables (dims : list Z) (t : fl) (inf : option fl) (reduced : bool) (hi : Z).
Hypothesis HN : NoDup dims.
Hypothesis H0 : forall d, In d dims -> 0 <= d.
Hypothesis Hhi : greatest dims hi.
Hypothesis Hr : forall c, ripser_answers ripser hi t (value_for t inf) reduced dims c.
Notation rows c dim := (nontrivial_rows reduced (value_for t inf) (ByDimension (ripser hi t c)) dim).

Lemma pairs_off c dim : In dim dims -> off_diagonal (pairs (rows c dim)) = pairs (rows c dim).
Proof.
  intro Hd. unfold off_diagonal, pairs. assert (F : forall p, In p (rows c dim) -> flt (pb p) (pd p) = true).
  { intros p I. unfold nontrivial_rows in I. now apply filter_In in I. }
  pose proof (fun p I => proj2 (Hr c) dim p Hd I) as FI. induction (rows c dim) as [|p l IH]; [reflexivity|]. cbn [map filter].
  destruct (FI p (or_introl eq_refl)) as (b & d & Eb & Ed). rewrite Eb, Ed. cbn [fst snd].
  specialize (F p (or_introl eq_refl)) as Fp. rewrite Eb, Ed in Fp. cbn in Fp. destruct (Qcltb_spec b d); [|easy].
  destruct (Qceqb_spec b d); [exfalso; subst; qlra|]. cbn [negb]. f_equal. apply IH; intros; [apply F|apply FI]; now right.
Qed.

Lemma collection f X : hom_fit dims t inf = Ok f -> X <> [] ->
  exists R, hom_transform junk (fun x => ByDimension (ripser (f_max f) t x)) f reduced X = Ok R /\
    zlen R = zlen X /\ R <> [] /\ hd [] R <> [] /\ finite_points R /\ (forall q, balanced q R) /\
    (forall q, In q (map pq (hd [] R)) <-> exists dim, In dim dims /\ q = fz dim) /\
    forall i x r dim, Znth X i = Some x -> Znth R i = Some r -> In dim dims ->
      points_of (fz dim) r <> [] /\ off_diagonal (points_of (fz dim) r) = pairs (rows x dim).
Proof.
  intros Ef HX. assert (Hne : dims <> []) by (intros ->; destruct Hhi as [[] _]).
  destruct (fit_transform_ok junk (fun f x => ByDimension (ripser (f_max f) t x)) dims t inf reduced X HX Hne HN)
    as [lo [hi' [f' [_ [[I1 I2] [E [_ [E2 [E3 [E4 H]]]]]]]]]].
  assert (f' = f) as -> by congruence.
  assert (hi' = hi) as -> by (destruct Hhi as [J1 J2]; apply Z.le_antisymm; auto).
  rewrite E2, E4 in H. rewrite E2. fold (value_for t inf) in H.
  assert (EI : f_inf f = value_for t inf) by (rewrite E4; reflexivity).
  destruct H as [R [ER HR]].
  { intros x dim Hx Hd. split; [auto|]. rewrite (proj1 (Hr x)). destruct Hhi as [_ J]. specialize (J _ Hd). lia. }
  exists R. split; [exact ER|]. destruct HR as [HL [HM [HQ HE]]]. split; [exact HL|].
  assert (NR : R <> []) by (destruct R; [|easy]; destruct X; [easy|]; rewrite zlen_cons in HL; pose proof (zlen_nonneg X); cbn in HL; lia).
  split; [exact NR|].
  assert (Hd0 : In (hd [] R) R) by (destruct R; [easy|now left]).
  assert (QR : forall r p, In r R -> In p r -> exists dim, In dim dims /\ pq p = fz dim).
  { intros r p Ir Ip. apply In_Znth in Ir as (i & B & Hi). destruct (Znth_ex X i) as [x Hx]; [lia|]. exact (proj2 (HM _ _ _ Hx Hi) p Ip). }
  assert (PP : forall dim, In dim dims -> exists n m, is_padding_value m (map (fun x => rows x dim) X) /\
     map (rows_of (fz dim)) R = map (fun x => padded n m (fz dim) (rows x dim)) X).
  { intros dim Hd. unfold hom_transform in ER.
    destruct (postprocess_rows_of_dimension junk (map (fun x => ByDimension (ripser hi t x)) X) (f_dims f) (f_inf f) reduced R) with (dim := dim) as (n & m & _ & P & Q).
    - destruct X; easy.
    - unfold hom_fit in Ef. apply bind_iff in Ef as (? & _ & Ef). apply bind_iff in Ef as (? & _ & Ef). injection Ef as <-. cbn. now apply NoDup_sorted_ints.
    - intros b dim' Ib Id. apply in_map_iff in Ib as (x & <- & Hx). split; [apply H0; now apply E3|]. rewrite (proj1 (Hr x)). destruct Hhi as [_ J].
      apply E3 in Id. specialize (J _ Id). lia.
    - exact ER.
    - now apply E3.
    - exists n, m. rewrite !map_map, EI in *. auto. }
  split.
  { destruct dims as [|d0 l] eqn:Ed; [easy|]. intro Z0. apply (HE (hd [] R) d0 Hd0); [now left|]. now rewrite Z0. }
  assert (RZ : forall r dim, In r R -> In dim dims -> exists x n m, In x X /\ is_padding_value m (map (fun x => rows x dim) X) /\ rows_of (fz dim) r = padded n m (fz dim) (rows x dim)).
  { intros r dim Ir Hd. destruct (PP dim Hd) as (n & m & P & Q). apply In_Znth in Ir as (i & B & Hi).
    destruct (Znth_ex X i) as [x Hx]; [lia|]. exists x, n, m. split; [eapply Znth_In; eauto|]. split; auto.
    apply (f_equal (fun L => Znth L i)) in Q. rewrite !Znth_map, Hi, Hx in Q. cbn in Q. now injection Q. }
  split.
  { intros r p Ir Ip. destruct (QR r p Ir Ip) as (dim & Hd & Eq). destruct (RZ r dim Ir Hd) as (x & n & m & Ix & Pm & Q).
    assert (Ip' : In p (rows_of (fz dim) r)) by (apply filter_In; split; auto; rewrite Eq, feq_fz; lia).
    rewrite Q in Ip'. unfold padded in Ip'. apply in_app_iff in Ip' as [Ip'|Ip'].
    - destruct (proj2 (Hr x) dim p Hd Ip') as (b & d & Eb & Ed). exists b, d. split; auto. split; auto.
      unfold nontrivial_rows in Ip'. apply filter_In in Ip' as [_ Hlt]. rewrite Eb, Ed in Hlt. cbn in Hlt. destruct (Qcltb_spec b d); [qlra|easy].
    - unfold diag_rows in Ip'. apply repeat_spec in Ip'. subst p. cbn [pb pd].
      assert (exists b, m = Fin b) as [b ->]; [|exists b, b; repeat split; qlra].
      destruct Pm as [[-> _]|[(x' & p & Ix' & Ip' & <-) _]]; [rewrite f0_fz, fz_qz; eauto|].
      apply in_map_iff in Ix' as (x0 & <- & _). destruct (proj2 (Hr x0) dim p Hd Ip') as (b & d & Eb & _). eauto. }
  split.
  { intro q. exists (zlen (rows_of q (hd [] R))). intros r Ir. assert (G : forall u v : diagram, map pq u = map pq v -> zlen (rows_of q u) = zlen (rows_of q v)).
    { induction u as [|a u IH]; intros [|b v] Em; cbn in Em; try easy. injection Em as E' Em. unfold rows_of. cbn [filter]. rewrite E'.
      destruct (feq (pq b) q); rewrite ?zlen_cons; fold (rows_of q u) (rows_of q v); rewrite (IH v Em); reflexivity. }
    apply G. now apply HQ. }
  split.
  { intro q. split.
    - intro I. apply in_map_iff in I as (p & <- & Ip). destruct (QR _ p Hd0 Ip) as (dim & Hd & Eq). eauto.
    - intros (dim & Hd & ->). pose proof (HE _ dim Hd0 Hd) as NE. destruct (rows_of (fz dim) (hd [] R)) as [|p l] eqn:Er; [easy|].
      assert (Ip : In p (rows_of (fz dim) (hd [] R))) by (rewrite Er; now left). apply filter_In in Ip as [Ip Eq].
      apply in_map_iff. exists p. split; auto. destruct (QR _ p Hd0 Ip) as (dim' & _ & Ep). rewrite Ep in Eq |- *. rewrite feq_fz in Eq. f_equal. lia. }
  intros i x r dim Hx Hi Hd. assert (Ir : In r R) by (eapply Znth_In; eauto). split.
  - unfold points_of. intro Z0. apply map_eq_nil in Z0. now apply (HE r dim Ir Hd).
  - rewrite <- (pairs_off x dim Hd). destruct (PP dim Hd) as (n & m & P & Q).
    apply (f_equal (fun L => Znth L i)) in Q. rewrite !Znth_map, Hi, Hx in Q. cbn in Q. injection Q as Q.
    unfold points_of. rewrite Q. unfold padded. rewrite map_app. unfold off_diagonal. rewrite filter_app. fold (pairs (rows x dim)).
    rewrite <- (app_nil_r (filter _ (pairs (rows x dim)))) at 2. f_equal. unfold diag_rows. generalize (Z.to_nat (n - zlen (rows x dim))) as k.
    induction k as [|k IH]; [reflexivity|]. cbn [repeat map filter pb pd].
    assert (EE : Qceqb (fst match m with Fin b => match m with Fin d => (b, d) | _ => (0, 0)%Qc end | _ => (0, 0)%Qc end) (snd match m with Fin b => match m with Fin d => (b, d) | _ => (0, 0)%Qc end | _ => (0, 0)%Qc end) = true).
    { destruct m; cbn [fst snd]; match goal with |- Qceqb ?a ?b = true => destruct (Qceqb_spec a b); easy end. }
    rewrite EE. cbn [negb]. exact IH.
Qed.
End Diagrams.
