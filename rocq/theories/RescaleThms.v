(** C55: ConsistentRescaling and ConsecutiveRescaling. *)
From Coq Require Import Reals Lra Permutation.
From Verif Require Import Np NpFacts HomProofs RescaleModel RescaleSpec RescaleProofs GraphThms.
Open Scope Z_scope.

(** M is the matrix D rescaled with the k-th neighbour distances: it is symmetric with a zero
    diagonal; above the diagonal it has D_ij / sqrt(r_i r_j), r_i being the k-th smallest entry
    (counting from 0) of row i of D.  The entry is not finite unless r_i r_j > 0. *)
Definition rescaled (k : Z) (D : list (list R)) (M : list (list fin)) : Prop :=
  square M (zlen D) /\
  (forall i, 0 <= i < zlen D -> entry M i i = Some (Some 0%R)) /\
  exists r, zlen r = zlen D /\
    (forall i row v, Znth D i = Some row -> Znth r i = Some v -> kth_smallest k row v) /\
    forall i j d ri rj, i < j -> entry D i j = Some d -> Znth r i = Some ri -> Znth r j = Some rj ->
      exists e, entry M i j = Some e /\ entry M j i = Some e /\
        ((0 < ri * rj)%R -> e = Some (d / sqrt (ri * rj))%R) /\ ((ri * rj <= 0)%R -> e = None).

Lemma rescaled_unique k D M M' : square D (zlen D) -> rescaled k D M -> rescaled k D M' -> M = M'.
Proof.
  intros QD (Q & Di & r & Lr & Kr & E) (Q' & Di' & r' & Lr' & Kr' & E').
  assert (r = r') as <-.
  { apply Znth_ext; [congruence|]. intros i Hi. destruct (Znth_ex r i) as [v Hv]; [lia|].
    destruct (Znth_ex r' i) as [v' Hv']; [lia|]. destruct (Znth_ex D i) as [row Hrow]; [lia|].
    rewrite Hv, Hv'. f_equal. eapply kth_unique; eauto. }
  eapply entry_ext; eauto. intros i j Hi Hj.
  destruct (Z.eq_dec i j) as [->|N]; [now rewrite Di, Di'|].
  assert (T : forall i j, i < j -> 0 <= i < zlen D -> 0 <= j < zlen D -> entry M i j = entry M' i j /\ entry M j i = entry M' j i).
  { clear i j Hi Hj N. intros i j L Hi Hj. destruct (Znth_ex r i) as [v Hv]; [lia|].
    destruct (Znth_ex r j) as [w Hw]; [lia|]. destruct (square_entry D _ i j QD Hi Hj) as [d Hd].
    destruct (E _ _ _ _ _ L Hd Hv Hw) as (e & E1 & E2 & E3 & E4).
    destruct (E' _ _ _ _ _ L Hd Hv Hw) as (e' & E1' & E2' & E3' & E4').
    assert (e = e') as <-; [|now rewrite E1, E2].
    destruct (Rlt_dec 0 (v * w)); [rewrite E3, E3' by auto|rewrite E4, E4' by lra]; auto. }
  destruct (Z_lt_dec i j); [now destruct (T i j)|]. destruct (T j i); try lia. auto.
Qed.

Section Consistent.
Variable argsort : list R -> list Z.

Lemma combine_Znth {A B} (l : list A) (r : list B) i a : zlen r = zlen l -> Znth l i = Some a ->
  exists b, Znth r i = Some b /\ Znth (combine l r) i = Some (a, b).
Proof.
  intros E H. pose proof (Znth_Some_lt _ _ _ H). destruct (Znth_ex r i) as [b Hb]; [lia|].
  exists b. split; auto. now apply Znth_combine.
Qed.

Lemma consistent_ok k D :
  (forall row, In row D -> sorts row (argsort row)) -> square D (zlen D) -> 0 <= k < zlen D ->
  exists M, consistent_rescaling argsort k D = Ok M /\ rescaled k D M.
Proof.
  intros S Q Hk. unfold consistent_rescaling.
  destruct (mapM_list_ok D (fun row => py_get (argsort row) k) (fun row i => Znth (argsort row) k = Some i)) as (idx & Ei & Fi).
  { intros row Hrow. destruct (S row Hrow) as [P _]. pose proof (proj2 Q row Hrow) as L.
    assert (zlen (argsort row) = zlen D).
    { unfold zlen in *. rewrite (Permutation_length P). unfold arange, tabZ. rewrite map_length, seq_length. lia. }
    destruct (Znth_ex (argsort row) k) as [i Hi]; [lia|]. exists i. split; [apply py_get_in; auto; lia|auto]. }
  rewrite Ei. cbn [bind].
  destruct (mapM_list_ok (combine D idx) (fun ri => py_get (fst ri) (snd ri)) (fun ri v => kth_smallest k (fst ri) v)) as (r & Er & Fr).
  { intros [row i] H. apply In_Znth in H as (p & _ & Hp). cbn [fst snd].
    assert (exists row' i', Znth D p = Some row' /\ Znth idx p = Some i' /\ (row, i) = (row', i')) as (row' & i' & H1 & H2 & H3).
    { pose proof (Znth_Some_lt _ _ _ Hp). pose proof (Forall2_zlen _ _ _ Fi).
      assert (zlen (combine D idx) = zlen D) by (unfold zlen in *; rewrite combine_length; lia).
      destruct (Znth_ex D p) as [row' Hr]; [lia|]. destruct (combine_Znth D idx p row') as (i' & H4 & H5); auto.
      exists row', i'. repeat split; auto. congruence. }
    injection H3 as <- <-. pose proof (Forall2_Znth _ _ _ _ _ _ Fi H1 H2) as Hi. cbn in Hi.
    assert (Hrow := Znth_In _ _ _ H1). destruct (S row Hrow) as [P Hs].
    assert (0 <= i < zlen row). { apply In_arange. eapply Permutation_in; [exact P|eapply Znth_In; eauto]. }
    destruct (Znth_ex row i) as [v Hv]; [lia|]. exists v. split; [apply py_get_in; auto; lia|].
    eapply sorts_kth; eauto. lia. }
  rewrite Er. cbn [bind]. eexists. split; [reflexivity|].
  assert (Lr : zlen r = zlen D).
  { rewrite <- (Forall2_zlen _ _ _ Fr). pose proof (Forall2_zlen _ _ _ Fi). unfold zlen in *. rewrite combine_length. lia. }
  set (n := zlen D) in *.
  set (dk := fun i => match Znth r i with Some d => d | None => 0%R end).
  set (X0 := repeat (repeat (Some 0%R) (length D)) (length D)).
  assert (Q0 : square X0 n).
  { split; [unfold X0, n, zlen; now rewrite repeat_length|]. intros x Hx. apply repeat_spec in Hx as ->. unfold n, zlen. now rewrite repeat_length. }
  assert (E0 : forall i j, 0 <= i < n -> 0 <= j < n -> entry X0 i j = Some (Some 0%R)).
  { intros i j Hi Hj. destruct (square_entry X0 n i j Q0 Hi Hj) as [x Hx]. rewrite Hx. f_equal.
    unfold entry in Hx. destruct (Znth X0 i) as [row|] eqn:Ex; [|easy]. apply Znth_In, repeat_spec in Ex. subst row.
    apply Znth_In, repeat_spec in Hx. auto. }
  pose proof (fold_set2 (combinations2 n) (fun i j => div_sqrt (get2 0%R D i j) (dk i * dk j)%R) X0 n Q0) as HF.
  cbv zeta in HF. set (Xc := fold_left _ (combinations2 n) X0) in *. destruct HF as [Qc HF].
  assert (Hup : forall i j, 0 <= i < n -> 0 <= j < n -> i < j -> entry Xc i j = Some (div_sqrt (get2 0%R D i j) (dk i * dk j)%R)).
  { intros i j Hi Hj L. apply HF; auto. apply In_combinations2. lia. }
  assert (Hlo : forall i j, 0 <= i < n -> 0 <= j < n -> j <= i -> entry Xc i j = Some (Some 0%R)).
  { intros i j Hi Hj L. rewrite <- E0 with (i := i) (j := j) by auto. apply HF; auto. rewrite In_combinations2. lia. }
  assert (EM : forall i j, 0 <= i < n -> 0 <= j < n ->
    entry (tabZ n (fun i => tabZ n (fun j => fin_add (get2 (Some 0%R) Xc i j) (get2 (Some 0%R) Xc j i)))) i j =
    Some (fin_add (get2 (Some 0%R) Xc i j) (get2 (Some 0%R) Xc j i))).
  { intros i j Hi Hj. unfold entry. rewrite Znth_tabZ, Znth_tabZ by lia. reflexivity. }
  split; [|split].
  - split; [apply zlen_tabZ; lia|]. intros row Hrow. apply In_tabZ in Hrow as (i & _ & <-). apply zlen_tabZ. lia.
  - intros i Hi. fold n in Hi. fold n. rewrite EM by auto. rewrite !(get2_entry _ _ _ _ _ (Hlo i i Hi Hi ltac:(lia))).
    cbn. do 2 f_equal. lra.
  - exists r. split; auto. split.
    + intros i row v Hrow Hv. destruct (combine_Znth D idx i row) as (i' & H1 & H2); auto.
      { symmetry. apply (Forall2_zlen _ _ _ Fi). }
      exact (Forall2_Znth _ _ _ _ _ _ Fr H2 Hv).
    + intros i j d ri rj L Hd Hri Hrj.
      pose proof (Znth_Some_lt _ _ _ Hri). pose proof (Znth_Some_lt _ _ _ Hrj).
      assert (Hi : 0 <= i < n) by lia. assert (Hj : 0 <= j < n) by lia.
      fold n. rewrite !EM by auto.
      rewrite (get2_entry _ _ _ _ _ (Hup i j Hi Hj L)), (get2_entry _ _ _ _ _ (Hlo j i Hj Hi ltac:(lia))).
      rewrite (get2_entry _ _ _ _ _ Hd). unfold dk. rewrite Hri, Hrj. unfold div_sqrt.
      destruct (Rlt_dec 0 (ri * rj)).
      * eexists. split; [reflexivity|]. cbn. split; [do 2 f_equal; lra|]. split; [|lra].
        intros _. f_equal. lra.
      * exists None. cbn. repeat split; auto. intro; lra.
Qed.

Theorem consistent_rescaling_spec k D M :
  (forall row, In row D -> sorts row (argsort row)) -> square D (zlen D) -> D <> [] -> 0 <= k ->
  (consistent_rescaling argsort k D = Ok M <-> k < zlen D /\ rescaled k D M).
Proof.
  intros S Q NE K. split.
  - intro H. destruct (Z_lt_dec k (zlen D)) as [L|L].
    + destruct (consistent_ok k D S Q ltac:(lia)) as (M' & H' & R'). split; auto. congruence.
    + exfalso. destruct D as [|row D]; [easy|]. unfold consistent_rescaling in H. cbn [mapM] in H.
      assert (py_get (argsort row) k = Err IndexError) as E; [|rewrite E in H; easy].
      destruct (S row (or_introl eq_refl)) as [P _].
      assert (zlen (argsort row) = zlen (row :: D)).
      { rewrite <- (proj2 Q row (or_introl eq_refl)). unfold zlen in *. rewrite (Permutation_length P).
        unfold arange, tabZ. rewrite map_length, seq_length. lia. }
      unfold py_get. destruct (Z.ltb_spec k 0); [lia|]. rewrite Znth_None; [reflexivity|lia].
  - intros [L HR]. destruct (consistent_ok k D S Q ltac:(lia)) as (M' & H' & R'). rewrite H'. f_equal.
    eapply rescaled_unique; eauto.
Qed.
(** With no more points than neighbor_rank: an IndexError. *)
Theorem consistent_rescaling_rank_error k D :
  (forall row, In row D -> sorts row (argsort row)) -> square D (zlen D) -> D <> [] -> zlen D <= k ->
  consistent_rescaling argsort k D = Err IndexError.
Proof.
  intros S Q NE L. destruct D as [|row D]; [easy|]. unfold consistent_rescaling. cbn [mapM].
  assert (py_get (argsort row) k = Err IndexError) as E; [|now rewrite E].
  destruct (S row (or_introl eq_refl)) as [P _].
  assert (zlen (argsort row) = zlen (row :: D)).
  { rewrite <- (proj2 Q row (or_introl eq_refl)). unfold zlen in *. rewrite (Permutation_length P).
    unfold arange, tabZ. rewrite map_length, seq_length. lia. }
  unfold py_get. pose proof (zlen_nonneg (row :: D)). destruct (Z.ltb_spec k 0); [lia|]. rewrite Znth_None; [reflexivity|lia].
Qed.
End Consistent.
