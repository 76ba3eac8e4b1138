(** Lemmas about MetricModel: the pairwise loop, the distance matrices. *)
From Coq Require Import Reals Lra Permutation.
From Verif Require Import Np NpFacts Fl FlFacts DiagTypes DiagModel DiagSpec DiagProofs DiagProofs2
  VecModel VecSpec SliceFacts VecProofs VecProofs2 VecProofs3 VecProofs4 RNp RNormFacts MetricModel MetricSpec.
Open Scope Z_scope.

(** *** the pairwise loop *)
Lemma flat_map_Znth_maps {A B C} (X : list A) (mats : list B) (row : B -> A -> C) r x :
  Znth X r = Some x ->
  flat_map (fun m => match Znth m r with Some v => [v] | None => [] end) (map (fun b => map (row b) X) mats)
  = map (fun b => row b x) mats.
Proof.
  intros H. induction mats as [|b mats IH]; [reflexivity|]. cbn [map flat_map]. rewrite Znth_map, H. cbn [option_map app]. now rewrite IH.
Qed.

Lemma py_sub_concat {A} (L : list (list A)) n i l : (forall l, In l L -> zlen l = n) -> Znth L i = Some l ->
  py_sub (Some (i * n)) (Some ((i + 1) * n)) (concat L) = l.
Proof.
  intros H Hl. pose proof (Znth_Some_lt _ _ _ Hl) as Hi.
  assert (E0 : zlen l = n) by (apply H; eapply Znth_In; eassumption).
  assert (Hn : 0 <= n) by (rewrite <- E0; apply zlen_nonneg).
  pose proof (zlen_concat_uniform L n H) as EL.
  destruct (py_sub_spec (concat L) (i * n) ((i + 1) * n) ltac:(nia) ltac:(rewrite EL; nia)) as [L1 N1].
  apply Znth_ext; [rewrite L1; lia|]. intros k Hk. rewrite L1 in Hk. rewrite N1 by lia.
  rewrite (Znth_concat_uniform L n i k l H Hl) by lia. reflexivity.
Qed.

Lemma parallel_pairwise_ok {V} (f : fl -> list (list qpt) -> list (list qpt) -> res (list (list V)))
  (h : fl -> diagram -> diagram -> V) X1 X2 dims n_jobs :
  1 <= n_jobs -> X1 <> [] -> X2 <> [] -> dims <> [] ->
  (forall q, In q dims -> balanced q X1) -> (forall q, In q dims -> balanced q X2) ->
  (forall q ys, In q dims -> ys <> [] -> incl ys X2 ->
     f q (map (fun x => to_q (rows_of q x)) X1) (map (fun x => to_q (rows_of q x)) ys) = Ok (map (fun x => map (h q x) ys) X1)) ->
  parallel_pairwise f X1 X2 dims n_jobs = Ok (map (fun x => map (fun y => map (fun q => h q x y) dims) X2) X1).
Proof.
  intros HJ HX1 HX2 Hd HB1 HB2 Hf. unfold parallel_pairwise.
  set (S := gen_even_slices (zlen X2) n_jobs).
  set (P := flat_map (fun dim => map (fun s => (dim, s)) S) dims).
  assert (EM : mapM (fun ds => do A <- subdiagrams X1 [fst ds]; do B <- subdiagrams (take_slice (snd ds) X2) [fst ds]; f (fst ds) (map to_q A) (map to_q B)) P
      = Ok (map (fun g => map g X1) (map (fun ds x => map (h (fst ds) x) (take_slice (snd ds) X2)) P))).
  { rewrite map_map. apply mapM_Ok. intros [q s] Hin. cbn [fst snd]. apply in_flat_map in Hin. destruct Hin as [q' [Hq Hin]].
    apply in_map_iff in Hin. destruct Hin as [s' [E Hs]]. injection E as -> ->.
    rewrite subdiagrams_ok; [|assumption|easy|intros q' [<-|[]]; auto]. cbn [bind].
    rewrite subdiagrams_ok.
    - cbn [bind]. rewrite !map_map. rewrite <- (Hf q (take_slice s X2)); [|assumption|apply (even_slices_nonempty X2 n_jobs); assumption|apply (take_slice_incl X2 n_jobs); assumption].
      f_equal; apply map_ext; intros x; cbn [map concat]; now rewrite app_nil_r.
    - apply (even_slices_nonempty X2 n_jobs); assumption.
    - easy.
    - intros q' [<-|[]]. apply (balanced_incl q X2); [auto|]. now apply (take_slice_incl X2 n_jobs). }
  rewrite EM. cbn [bind].
  assert (HP : P <> []).
  { unfold P. destruct dims as [|q dims]; [easy|]. cbn [flat_map]. pose proof (even_slices_ne X2 n_jobs HJ HX2) as N. fold S in N.
    destruct S; [easy|]. discriminate. }
  rewrite hcat_maps.
  assert (EC : map (fun x => concat (map (fun g => g x) (map (fun ds x => map (h (fst ds) x) (take_slice (snd ds) X2)) P))) X1
     = map (fun x => concat (map (fun q => map (h q x) X2) dims)) X1).
  { apply map_ext. intros x. rewrite map_map. unfold P. rewrite flat_map_concat_map, concat_map, map_map.
    rewrite <- flat_map_concat_map.
    erewrite flat_map_ext; [|intros q; rewrite map_map; cbn [fst snd]; reflexivity].
    rewrite concat_map_flat. f_equal. apply map_ext. intros q.
    transitivity (map (h q x) (concat (map (fun s => take_slice s X2) S))); [rewrite concat_map, map_map; reflexivity|].
    f_equal. now apply even_slices_concat. }
  rewrite EC. clear EC EM.
  destruct (map (fun g => map g X1) _) as [|bl bls] eqn:EB; [exfalso; destruct P; [easy|discriminate]|]. clear EB bl bls.
  f_equal.
  assert (EMats : tabZ (zlen dims) (fun i => map (py_sub (Some (i * zlen X2)) (Some ((i + 1) * zlen X2))) (map (fun x => concat (map (fun q => map (h q x) X2) dims)) X1))
     = map (fun q => map (fun x => map (h q x) X2) X1) dims).
  { apply Znth_ext; [rewrite zlen_tabZ, zlen_map by apply zlen_nonneg; reflexivity|]. intros i Hi. rewrite zlen_tabZ in Hi by apply zlen_nonneg.
    rewrite Znth_tabZ by assumption. rewrite Znth_map. destruct (Znth_ex dims i Hi) as [q Eq]. rewrite Eq. cbn [option_map]. f_equal.
    rewrite map_map. apply map_ext. intros x. apply py_sub_concat.
    - intros l Hl. apply in_map_iff in Hl. destruct Hl as [q' [<- _]]. apply zlen_map.
    - rewrite Znth_map, Eq. reflexivity. }
  rewrite EMats. apply Znth_ext; [rewrite zlen_tabZ, zlen_map by apply zlen_nonneg; reflexivity|]. intros r Hr. rewrite zlen_tabZ in Hr by apply zlen_nonneg.
  rewrite Znth_tabZ by assumption. rewrite Znth_map. destruct (Znth_ex X1 r Hr) as [x Ex]. rewrite Ex. cbn [option_map]. f_equal.
  etransitivity; [|apply (transposeZ_map_map (fun q y => h q x y) dims X2)]. f_equal.
  apply (flat_map_Znth_maps X1 dims (fun q x => map (h q x) X2) r x Ex).
Qed.

(** *** distance matrices *)
Lemma list_eqb_spec {A} (eqb : A -> A -> bool) : (forall a b, eqb a b = true -> a = b) -> forall l r, list_eqb eqb l r = true -> l = r.
Proof.
  intros H. induction l as [|a l IH]; intros [|b r] E; try discriminate; [reflexivity|]. cbn [list_eqb] in E. apply andb_prop in E. destruct E as [E1 E2].
  apply H in E1. apply IH in E2. congruence.
Qed.
Lemma array_equal_eq d1 d2 : array_equal d1 d2 = true -> d1 = d2.
Proof.
  apply list_eqb_spec. apply list_eqb_spec. intros [a b] [c d] E. cbn [fst snd] in E. apply andb_prop in E. destruct E as [E1 E2].
  apply Qceqb_eq in E1, E2. congruence.
Qed.

Definition pos_p (p : expo) : Prop := match p with Pfin p => (0 < p)%R | Pinf => True end.
Lemma ge1_pos p : ge1 p -> pos_p p.
Proof. destruct p; cbn; intros; [lra|exact I]. Qed.

Lemma squareform_ok {A} p c (C : A -> list R) d : pos_p p ->
  squareform_pdist p (Some c) (map (fun x => Some (C x)) d) =
  map (fun x => map (fun y => Some (mink p (C x) (C y) * c)%R) d) d.
Proof.
  intros Hp. unfold squareform_pdist. rewrite zlen_map. pose proof (zlen_nonneg d).
  apply Znth_ext; [rewrite zlen_tabZ, zlen_map by assumption; reflexivity|]. intros i Hi. rewrite zlen_tabZ in Hi by assumption.
  rewrite Znth_tabZ by assumption. rewrite Znth_map. destruct (Znth_ex d i Hi) as [x Ex]. rewrite Ex. cbn [option_map]. f_equal.
  apply Znth_ext; [rewrite zlen_tabZ, zlen_map by assumption; reflexivity|]. intros j Hj. rewrite zlen_tabZ in Hj by assumption.
  rewrite Znth_tabZ by assumption. rewrite !Znth_map. destruct (Znth_ex d j Hj) as [y Ey]. rewrite Ey. cbn [option_map]. f_equal.
  destruct (Z.eqb_spec i j) as [->|N].
  - replace y with x by congruence. rewrite mink_refl by exact Hp. f_equal. ring.
  - destruct (Z.le_ge_cases i j).
    + rewrite Z.min_l, Z.max_r by assumption. rewrite Ex, Ey. reflexivity.
    + rewrite Z.min_r, Z.max_l by assumption. rewrite Ex, Ey. cbn [option_map dist1 scale]. now rewrite mink_sym.
Qed.
Lemma cdist_ok {A} p c (C : A -> list R) d1 d2 :
  cdist p (Some c) (map (fun x => Some (C x)) d1) (map (fun x => Some (C x)) d2) =
  map (fun x => map (fun y => Some (mink p (C x) (C y) * c)%R) d2) d1.
Proof. unfold cdist. rewrite map_map. apply map_ext. intros x. rewrite map_map. reflexivity. Qed.

Lemma norms_ok {A} p c (C : A -> list R) d : (forall x, In x d -> p = Pinf -> C x <> []) ->
  norms p (Some c) (map (fun x => Some (C x)) d) = Ok (map (fun x => Some (norm p (C x) * c)%R) d).
Proof.
  intros H. unfold norms. rewrite mapM_map. apply mapM_Ok. intros x Hx. unfold np_norm.
  destruct p; [reflexivity|]. destruct (C x) eqn:E; [|reflexivity]. exfalso. eapply H; eauto.
Qed.

(** *** rationals as reals *)
Lemma qr_le a b : (qr a <= qr b)%R <-> (a <= b)%Qc.
Proof. unfold qr, Qcle. split; [apply Qreals.Rle_Qle|apply Qreals.Qle_Rle]. Qed.
Lemma qr_lt a b : (qr a < qr b)%R <-> (a < b)%Qc.
Proof. unfold qr, Qclt. split; [apply Qreals.Rlt_Qlt|apply Qreals.Qlt_Rlt]. Qed.
Lemma qr_ext a b : Qeq (this a) b -> qr a = Q2R b.
Proof. unfold qr. apply Qreals.Qeq_eqR. Qed.
Lemma qr_inj a b : qr a = qr b -> a = b.
Proof. intros H. apply Qc_is_canon. now apply Qreals.eqR_Qeq. Qed.
Lemma qr_add a b : qr (a + b)%Qc = (qr a + qr b)%R.
Proof. rewrite (qr_ext _ (this a + this b)%Q) by apply Qred_correct. apply Qreals.Q2R_plus. Qed.
Lemma qr_mul a b : qr (a * b)%Qc = (qr a * qr b)%R.
Proof. rewrite (qr_ext _ (this a * this b)%Q) by apply Qred_correct. apply Qreals.Q2R_mult. Qed.
Lemma qr_opp a : qr (- a)%Qc = (- qr a)%R.
Proof. rewrite (qr_ext _ (- this a)%Q) by apply Qred_correct. apply Qreals.Q2R_opp. Qed.
Lemma qr_sub a b : qr (a - b)%Qc = (qr a - qr b)%R.
Proof. unfold Qcminus. rewrite qr_add, qr_opp. reflexivity. Qed.
Lemma qr_qz n : qr (qz n) = IZR n.
Proof. rewrite (qr_ext _ (inject_Z n)) by apply Qred_correct. unfold Q2R, inject_Z. cbn. field. Qed.
Lemma qr_0 : qr 0%Qc = 0%R.
Proof. change 0%Qc with (qz 0). apply qr_qz. Qed.
Lemma qr_1 : qr 1%Qc = 1%R.
Proof. change 1%Qc with (qz 1). apply qr_qz. Qed.
Lemma qr_half a : qr (a / qz 2)%Qc = (qr a / 2)%R.
Proof.
  assert (H : (a = (a / qz 2) * qz 2)%Qc) by (field; intros F; apply (qz_inj 2 0) in F; discriminate).
  pose proof (qr_mul (a / qz 2)%Qc (qz 2)) as E. rewrite <- H, qr_qz in E. rewrite E. field.
Qed.
