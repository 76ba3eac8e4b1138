(** Lemmas for the vectorisations. *)
From Coq Require Import Permutation Sorted.
From Verif Require Import Np NpFacts Fl FlFacts DiagTypes DiagModel DiagSpec DiagProofs DiagProofs2
  VecModel VecSpec SliceFacts.
Open Scope Z_scope.

Ltac qz_norm := rewrite ?qz_0, ?qz_1 in *.

Lemma Qcmax_smax a b : Qcmax a b = smax a b. Proof. reflexivity. Qed.
Lemma qz2_pos : (0 < qz 2)%Qc. Proof. rewrite <- qz_0. apply qz_lt. lia. Qed.
Lemma qz2_neq : qz 2 <> 0%Qc. Proof. intros E. rewrite <- qz_0 in E. apply qz_inj in E. discriminate. Qed.

(** *** Betti curves *)
Lemma alive_count_filter s x : zlen (filter (fun p : qpt => Qcleb (fst p) s && Qcltb s (snd p)) x) = alive_count s x.
Proof.
  induction x as [|p x IH]; [reflexivity|]. cbn [filter alive_count].
  destruct (Qcleb (fst p) s && Qcltb s (snd p)); rewrite ?zlen_cons, IH; lia.
Qed.
Lemma betti_curves_ok diagrams sampling :
  betti_curves diagrams sampling = map (fun x => map (fun s => alive_count s x) sampling) diagrams.
Proof.
  unfold betti_curves. rewrite (transposeZ_map_map (fun s x => zlen (filter (fun p : qpt => Qcleb (fst p) s && Qcltb s (snd p)) x))).
  apply map_ext. intros x. apply map_ext. intros s. apply alive_count_filter.
Qed.
Lemma alive_count_perm s x y : Permutation x y -> alive_count s x = alive_count s y.
Proof. induction 1; cbn [alive_count]; lia. Qed.
Lemma alive_count_off s x : alive_count s x = alive_count s (off_diagonal x).
Proof.
  induction x as [|p x IH]; [reflexivity|]. unfold off_diagonal. cbn [filter]. fold (off_diagonal x).
  destruct (Qceqb_spec (fst p) (snd p)) as [E|E]; cbn [negb alive_count]; rewrite IH; [|reflexivity].
  rewrite <- E. destruct (Qcleb_spec (fst p) s), (Qcltb_spec s (fst p)); cbn [andb]; try reflexivity. exfalso. qlra.
Qed.
Lemma alive_count_same s x y : same_off_diagonal x y -> alive_count s x = alive_count s y.
Proof. intros H. rewrite (alive_count_off s x), (alive_count_off s y). now apply alive_count_perm. Qed.

(** *** Landscapes *)
Lemma half_cancel a : (a / qz 2 + a / qz 2 = a)%Qc.
Proof.
  assert (E : (qz 2 = 1 + 1)%Qc) by (rewrite <- qz_1, <- qz_add; reflexivity).
  transitivity (a * ((1 + 1) / qz 2))%Qc; [field; exact qz2_neq|]. rewrite <- E. field. exact qz2_neq.
Qed.
Lemma tent_fiber_eq s p : tent_fiber s p = tent s p.
Proof.
  unfold tent_fiber, tent, Qcmax, smax, smin, Qcabs.
  assert (H1 := half_cancel (snd p + fst p)). assert (H2 := half_cancel (snd p - fst p)).
  set (m := ((snd p + fst p) / qz 2)%Qc) in *. set (h := ((snd p - fst p) / qz 2)%Qc) in *.
  qdec; qneg; qlra.
Qed.
Lemma tent_nonneg s p : (0 <= tent s p)%Qc.
Proof. unfold tent, smax. qdec; qneg; qlra. Qed.
Lemma tent_diagonal s p : fst p = snd p -> tent s p = 0%Qc.
Proof. intros E. unfold tent, smax, smin. rewrite <- E. qdec; qneg; qlra. Qed.

(** descending sort *)
Fixpoint insert_desc (x : Qc) (l : list Qc) : list Qc :=
  match l with [] => [x] | y :: t => if Qcleb y x then x :: l else y :: insert_desc x t end.
Definition sort_desc (l : list Qc) : list Qc := fold_right insert_desc [] l.
Lemma insert_desc_perm x l : Permutation (insert_desc x l) (x :: l).
Proof.
  induction l as [|y l IH]; cbn [insert_desc]; [reflexivity|]. destruct (Qcleb y x); [reflexivity|].
  rewrite IH. apply perm_swap.
Qed.
Lemma sort_desc_perm l : Permutation (sort_desc l) l.
Proof. induction l; [constructor|]. cbn [sort_desc fold_right]. rewrite insert_desc_perm. now constructor. Qed.
Notation desc := (StronglySorted (fun a b => (b <= a)%Qc)).
Lemma insert_desc_sorted x l : desc l -> desc (insert_desc x l).
Proof.
  induction l as [|y l IH]; intros S; cbn [insert_desc]; [constructor; constructor|].
  inversion S as [|? ? S1 S2]; subst. destruct (Qcleb_spec y x).
  - constructor; [assumption|]. constructor; [assumption|]. eapply Forall_impl; [|exact S2]. intros a Ha. simpl in *. qlra.
  - qneg. constructor; [auto|]. apply Forall_forall. intros a Ha. apply (Permutation_in _ (insert_desc_perm x l)) in Ha.
    destruct Ha as [<-|Ha]; [qlra|]. rewrite Forall_forall in S2. auto.
Qed.
Lemma sort_desc_sorted l : desc (sort_desc l).
Proof. induction l; [constructor|]. cbn [sort_desc fold_right]. now apply insert_desc_sorted. Qed.
Lemma desc_unique l l' : desc l -> desc l' -> Permutation l l' -> l = l'.
Proof.
  revert l'; induction l as [|x l IH]; intros l' S S' P.
  - apply Permutation_nil in P. now subst.
  - destruct l' as [|y l']; [apply Permutation_sym, Permutation_nil in P; discriminate|].
    inversion S as [|? ? S1 S2]; subst. inversion S' as [|? ? S1' S2']; subst. rewrite Forall_forall in *.
    assert (E : x = y).
    { assert (Hx : In x (y :: l')) by (apply (Permutation_in _ P); now left).
      assert (Hy : In y (x :: l)) by (apply (Permutation_in _ (Permutation_sym P)); now left).
      destruct Hx as [->|Hx]; [reflexivity|]. destruct Hy as [->|Hy]; [reflexivity|].
      apply Qcle_antisym; auto. }
    subst y. f_equal. apply IH; [assumption|assumption|]. eapply Permutation_cons_inv; eassumption.
Qed.

(** value of layer k *)
Definition layer (l : list Qc) (k : Z) : Qc := match Znth (sort_desc l) k with Some v => v | None => 0%Qc end.
Lemma layer_kth l k : 0 <= k -> kth_largest l k (layer l k).
Proof.
  intros Hk. exists (sort_desc l). split; [apply sort_desc_perm|]. split; [apply sort_desc_sorted|].
  unfold layer. destruct (Znth (sort_desc l) k) eqn:E; [left; reflexivity|right].
  split; [|reflexivity]. destruct (Z.lt_ge_cases k (zlen (sort_desc l))); [|lia].
  destruct (Znth_ex (sort_desc l) k ltac:(lia)). congruence.
Qed.
Lemma kth_largest_layer l k v : kth_largest l k v -> v = layer l k.
Proof.
  intros [L [P [S H]]]. assert (E : L = sort_desc l).
  { apply desc_unique; [assumption|apply sort_desc_sorted|]. rewrite P. symmetry. apply sort_desc_perm. }
  subst L. unfold layer. destruct H as [->|[H ->]]; [reflexivity|]. rewrite Znth_None by lia. reflexivity.
Qed.
Lemma layer_perm l l' k : Permutation l l' -> layer l k = layer l' k.
Proof.
  intros P. unfold layer. replace (sort_desc l') with (sort_desc l); [reflexivity|].
  apply desc_unique; try apply sort_desc_sorted. rewrite !sort_desc_perm. assumption.
Qed.
Lemma desc_app_zero l : desc l -> (forall v, In v l -> (0 <= v)%Qc) -> desc (l ++ [0%Qc]).
Proof.
  induction l as [|x l IH]; intros S H; cbn [app]; [constructor; constructor|].
  inversion S as [|? ? S1 S2]; subst. constructor; [apply IH; [assumption|]; intros; apply H; now right|].
  apply Forall_app. split; [assumption|]. constructor; [|constructor]. apply H. now left.
Qed.
Lemma layer_zero l k : (forall v, In v l -> (0 <= v)%Qc) -> layer (0%Qc :: l) k = layer l k.
Proof.
  intros H. unfold layer.
  assert (E : sort_desc (0%Qc :: l) = sort_desc l ++ [0%Qc]).
  { apply desc_unique; [apply sort_desc_sorted| |].
    - apply desc_app_zero; [apply sort_desc_sorted|]. intros v Hv. apply H. apply (Permutation_in _ (sort_desc_perm l)). assumption.
    - rewrite !sort_desc_perm. apply Permutation_cons_append. }
  rewrite E. destruct (Z.lt_ge_cases k (zlen (sort_desc l))).
  - now rewrite Znth_app1.
  - rewrite Znth_app2 by lia. rewrite (Znth_None (sort_desc l)) by lia.
    destruct (Z.eq_dec (k - zlen (sort_desc l)) 0) as [->|]; [rewrite Znth_0; reflexivity|].
    rewrite Znth_None; [reflexivity|]. right. rewrite zlen_cons, zlen_nil. lia.
Qed.
Lemma layer_off s x k : layer (map (tent s) x) k = layer (map (tent s) (off_diagonal x)) k.
Proof.
  assert (G : forall a b, Permutation a b -> forall x, layer (a ++ map (tent s) x) k = layer (b ++ map (tent s) x) k).
  { intros a b P y. apply layer_perm. now apply Permutation_app_tail. }
  assert (H : forall a, (forall v, In v a -> (0 <= v)%Qc) -> layer (a ++ map (tent s) x) k = layer (a ++ map (tent s) (off_diagonal x)) k).
  { induction x as [|p x IH]; intros a Ha; [reflexivity|]. unfold off_diagonal. cbn [filter]. fold (off_diagonal x).
    destruct (Qceqb_spec (fst p) (snd p)) as [E|E]; cbn [negb map].
    - rewrite (tent_diagonal s p E). rewrite (layer_perm _ (0%Qc :: (a ++ map (tent s) x))) by (symmetry; apply Permutation_middle).
      rewrite layer_zero; [now apply IH|]. intros v Hv. apply in_app_or in Hv. destruct Hv as [Hv|Hv]; [auto|].
      apply in_map_iff in Hv. destruct Hv as [p' [<- _]]. apply tent_nonneg.
    - rewrite (layer_perm (a ++ tent s p :: map (tent s) x) ((a ++ [tent s p]) ++ map (tent s) x)) by (rewrite <- app_assoc; reflexivity).
      rewrite (layer_perm (a ++ tent s p :: map (tent s) (off_diagonal x)) ((a ++ [tent s p]) ++ map (tent s) (off_diagonal x))) by (rewrite <- app_assoc; reflexivity).
      apply IH. intros v Hv. apply in_app_or in Hv. destruct Hv as [Hv|[<-|[]]]; [auto|apply tent_nonneg]. }
  apply (H []). intros v [].
Qed.
Lemma layer_same s x y k : same_off_diagonal x y -> layer (map (tent s) x) k = layer (map (tent s) y) k.
Proof. intros H. rewrite (layer_off s x), (layer_off s y). apply layer_perm. now apply Permutation_map. Qed.
Lemma desc_app l l' v : desc l -> desc l' -> (forall a, In a l -> (v <= a)%Qc) -> (forall b, In b l' -> (b <= v)%Qc) -> desc (l ++ v :: l').
Proof.
  induction l as [|x l IH]; intros S S' H H'; cbn [app].
  - constructor; [assumption|]. apply Forall_forall. assumption.
  - inversion S as [|? ? S1 S2]; subst. constructor; [apply IH; auto; intros; apply H; now right|].
    assert (Hx := H x (or_introl eq_refl)). apply Forall_app. split; [assumption|]. constructor; [assumption|].
    apply Forall_forall. intros b Hb. apply H' in Hb. qlra.
Qed.
Lemma Znth_split {A} (l : list A) i v : Znth l i = Some v -> exists l1 l2, l = l1 ++ v :: l2 /\ zlen l1 = i.
Proof.
  intros H. unfold Znth in H. destruct (Z.ltb_spec i 0); [discriminate|].
  apply nth_error_split in H. destruct H as [l1 [l2 [-> E]]]. exists l1, l2. split; [reflexivity|]. unfold zlen. lia.
Qed.
Lemma pivot_layer P i v : Znth P i = Some v ->
  (forall j w, 0 <= j < i -> Znth P j = Some w -> (w <= v)%Qc) ->
  (forall j w, i < j -> Znth P j = Some w -> (v <= w)%Qc) ->
  layer P (zlen P - 1 - i) = v.
Proof.
  intros H Hl Hr. destruct (Znth_split _ _ _ H) as [A [B [-> E]]]. unfold layer.
  assert (Q : sort_desc (A ++ v :: B) = sort_desc B ++ v :: sort_desc A).
  { apply desc_unique; [apply sort_desc_sorted| |].
    - apply desc_app; try apply sort_desc_sorted.
      + intros a Ha. apply (Permutation_in _ (sort_desc_perm B)) in Ha. apply In_Znth in Ha. destruct Ha as [j [Hj Ha]].
        apply (Hr (i + 1 + j)); [lia|]. rewrite Znth_app2 by lia. rewrite Znth_cons by lia. rewrite <- Ha. f_equal. lia.
      + intros b Hb. apply (Permutation_in _ (sort_desc_perm A)) in Hb. apply In_Znth in Hb. destruct Hb as [j [Hj Hb]].
        apply (Hl j); [lia|]. rewrite Znth_app1 by lia. assumption.
    - rewrite !sort_desc_perm. rewrite <- Permutation_middle. rewrite <- Permutation_middle. constructor. apply Permutation_app_comm. }
  rewrite Q. assert (LB : zlen (sort_desc B) = zlen B) by (unfold zlen; now rewrite (Permutation_length (sort_desc_perm B))).
  rewrite zlen_app, zlen_cons. rewrite Znth_app2 by lia. replace (_ - _) with 0 by lia. now rewrite Znth_0.
Qed.

Lemma py_sub_tail {A} (l : list A) n : 1 <= n -> py_sub (Some (- n)) None l = py_sub (Some (Z.max 0 (zlen l - n))) (Some (zlen l)) l.
Proof.
  intros Hn. pose proof (zlen_nonneg l). unfold py_sub, py_slice.
  assert (E : slice_start 1 (zlen l) (Some (- n)) = slice_start 1 (zlen l) (Some (Z.max 0 (zlen l - n)))).
  { unfold slice_start, clip_index. destruct (Z.ltb_spec (- n) 0); [|lia].
    destruct (Z.ltb_spec (Z.max 0 (zlen l - n)) 0); cbn -[Z.max Z.min Z.add]; lia. }
  assert (E' : slice_stop 1 (zlen l) None = slice_stop 1 (zlen l) (Some (zlen l))).
  { unfold slice_stop, clip_index. destruct (Z.ltb_spec (zlen l) 0); cbn -[Z.max Z.min Z.add]; lia. }
  rewrite E, E'. reflexivity.
Qed.

Lemma partition_row part L l : is_partition part -> 1 <= L ->
  let top := Z.min L (zlen l) in
  rev (py_sub (Some (- L)) None (part (tabZ top (fun k => - top + k)) l)) = tabZ top (layer l).
Proof.
  intros HP HL top. set (pos := tabZ top (fun k => - top + k)). destruct (HP pos l) as [P K].
  set (r := part pos l) in *. assert (Lr : zlen r = zlen l) by (unfold zlen; now rewrite (Permutation_length P)).
  pose proof (zlen_nonneg l). assert (Ht : 0 <= top <= zlen l) by lia.
  rewrite py_sub_tail by lia. destruct (py_sub_spec r (Z.max 0 (zlen r - L)) (zlen r) ltac:(lia) ltac:(lia)) as [L1 N1].
  apply Znth_ext; [rewrite zlen_rev, zlen_tabZ, L1; lia|]. intros k Hk. rewrite zlen_rev, L1 in Hk.
  rewrite Znth_tabZ by lia. rewrite Znth_rev by lia. rewrite L1, N1 by lia.
  destruct (K (- 1 - k)) as [v [V1 [V2 V3]]].
  { apply In_tabZ. exists (top - 1 - k). split; lia. }
  { lia. }
  replace (Z.max 0 (zlen r - L) + _) with (zlen l + (-1 - k)) by lia. rewrite V1. f_equal.
  rewrite <- (layer_perm r l) by assumption. rewrite <- (pivot_layer r (zlen l + (-1 - k)) v); [f_equal; lia|assumption|assumption|assumption].
Qed.

Lemma landscapes_ok part diagrams sampling L :
  is_partition part -> 1 <= L -> (exists n, forall x, In x diagrams -> zlen x = n) ->
  landscapes part diagrams sampling L =
  map (fun x => tabZ L (fun k => map (fun s => layer (map (tent s) x) k) sampling)) diagrams.
Proof.
  intros HP HL [n HU]. unfold landscapes. destruct diagrams as [|x0 ds]; [reflexivity|].
  set (diagrams := x0 :: ds) in *. assert (En : n_points_of diagrams = n) by (apply HU; now left). rewrite En.
  assert (Hn : 0 <= n) by (rewrite <- En; apply zlen_nonneg).
  set (top := Z.min L n).
  assert (E1 : map (map (fun r => rev (py_sub (Some (- L)) None r)))
     (map (map (part (tabZ top (fun k => - top + k)))) (map (fun s => map (fun x => map (tent_fiber s) x) diagrams) sampling))
     = map (fun s => map (fun x => tabZ top (layer (map (tent s) x))) diagrams) sampling).
  { rewrite !map_map. apply map_ext. intros s. rewrite !map_map. apply map_ext_in. intros x Hx.
    rewrite (map_ext _ (tent s)) by (intros; apply tent_fiber_eq).
    pose proof (partition_row part L (map (tent s) x) HP HL) as E. cbv zeta in E. rewrite zlen_map in E. pose proof (HU x Hx) as Ex. rewrite Ex in E. exact E. }
  rewrite E1. clear E1. apply Znth_ext; [rewrite !zlen_map, zlen_tabZ; [reflexivity|apply zlen_nonneg]|].
  intros i Hi. rewrite zlen_map, zlen_tabZ in Hi by apply zlen_nonneg. rewrite !Znth_map, Znth_tabZ by assumption.
  destruct (Znth_ex diagrams i Hi) as [x Hx]. rewrite Hx. cbn [option_map]. f_equal.
  assert (E2 : col i (map (fun s => map (fun x => tabZ top (layer (map (tent s) x))) diagrams) sampling)
             = map (fun s => tabZ top (layer (map (tent s) x))) sampling).
  { apply col_map. intros s _. rewrite Znth_map, Hx. reflexivity. }
  rewrite E2. clear E2.
  assert (Lx : zlen x = n) by (apply HU; eapply Znth_In; eassumption).
  apply Znth_ext.
  - unfold transposeZ. rewrite zlen_app, zlen_tabZ, zlen_repeat, zlen_tabZ by lia. lia.
  - intros k Hk. unfold transposeZ in *. rewrite zlen_app, zlen_tabZ, zlen_repeat in Hk by lia. rewrite Znth_tabZ by lia.
    destruct (Z.lt_ge_cases k top).
    + rewrite Znth_app1 by (rewrite zlen_tabZ; lia). rewrite Znth_tabZ by lia. f_equal.
      apply col_map. intros s _. now rewrite Znth_tabZ by lia.
    + rewrite Znth_app2 by (rewrite zlen_tabZ; lia). rewrite zlen_tabZ by lia.
      rewrite <- repeat_tabZ, Znth_tabZ by lia. f_equal.
      assert (Z0 : forall s, layer (map (tent s) x) k = 0%Qc).
      { intros s. unfold layer. rewrite Znth_None; [reflexivity|]. right.
        unfold zlen. rewrite (Permutation_length (sort_desc_perm _)), map_length. unfold zlen in *. lia. }
      rewrite (map_ext _ (fun _ => 0%Qc)) by (intros; apply Z0). clear. induction sampling; [reflexivity|]. cbn [length repeat map]. now f_equal.
Qed.
