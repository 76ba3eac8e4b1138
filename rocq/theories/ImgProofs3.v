(** Preprocessing of images. *)
From Verif Require Import Np NpFacts Nd NdFacts Fl FlFacts VecModel SliceFacts ImgModel ImgSpec ImgProofs ImgProofs2.
Open Scope Z_scope.

Lemma np_max_ok l : l <> [] -> exists m, np_max l = Ok m /\ In m l /\ forall v, In v l -> (v <= m)%Qc.
Proof.
  destruct l as [|a l]; [easy|]. intros _. unfold np_max. eexists. split; [reflexivity|].
  assert (G : forall l a, let m := fold_left (fun m v => if Qcleb m v then v else m) l a in (m = a \/ In m l) /\ (a <= m)%Qc /\ forall v, In v l -> (v <= m)%Qc).
  { clear. induction l as [|b l IH]; intros a; cbn [fold_left]; [split; [now left|]; split; [apply Qcle_refl|easy]|].
    destruct (Qcleb_spec a b) as [L|L]; [destruct (IH b) as [A [B C]]|destruct (IH a) as [A [B C]]]; cbv zeta.
    - split; [destruct A as [->|A]; [right; now left|right; now right]|]. split; [now apply Qcle_trans with b|]. intros v [<-|Hv]; auto.
    - apply Qcnle in L. split; [destruct A as [A|A]; [now left|right; now right]|]. split; [assumption|]. intros v [<-|Hv]; [|now apply C].
      apply Qcle_trans with a; [now apply Qclt_le_weak|assumption]. }
  destruct (G l a) as [A [B C]]. split; [destruct A as [->|A]; [now left|now right]|]. intros v [<-|Hv]; auto.
Qed.
Lemma nget_In {A} (x : nd A) idx v : nget x idx = Some v -> In v (ndata x).
Proof. unfold nget. destruct (inside _ _); [|discriminate]. apply Znth_In. Qed.
Lemma In_nget {A} (x : nd A) v : wf x -> In v (ndata x) -> exists idx, nget x idx = Some v.
Proof.
  intros [H L] Hv. apply In_Znth in Hv. destruct Hv as [k [Hk E]]. destruct (unravel (nshape x) k H) as [idx [I R]]; [lia|]. exists idx. unfold nget. now rewrite I, R.
Qed.
Lemma size_pos s : (forall n, In n s -> 0 < n) -> 0 < nd_size s.
Proof. induction s as [|n s IH]; intros H; [cbn; lia|]. cbn [nd_size]. apply Z.mul_pos_pos; [apply H; now left|]. apply IH. intros; apply H; now right. Qed.
Lemma batch_max_ok s X : images s X -> (forall n, In n s -> 0 < n) -> exists m, batch_max X = Ok m /\ largest X m.
Proof.
  intros [HX H] HS. unfold batch_max. destruct (np_max_ok (flat_map ndata X)) as [m [E [I U]]].
  - destruct X as [|x X]; [easy|]. destruct (H x (or_introl eq_refl)) as [[_ L] Es]. cbn [flat_map]. intros C. apply app_eq_nil in C. destruct C as [C _]. rewrite C, Es in L.
    change (zlen (@nil Qc)) with 0 in L. pose proof (size_pos s HS). lia.
  - exists m. split; [assumption|]. split.
    + apply in_flat_map in I. destruct I as [x [Hx I]]. destruct (In_nget x m (proj1 (H x Hx)) I) as [idx Hi]. eauto.
    + intros x idx v Hx Hv. apply U. apply in_flat_map. exists x. split; [assumption|]. now apply (nget_In x idx).
Qed.
Lemma fdiv_spec t v m : (0 < t)%Qc -> is_binarized t m v (flt (Fin t) (fdiv (Fin v) (Fin m))).
Proof.
  intros Ht. unfold is_binarized, fdiv. destruct (Qceqb_spec m 0) as [->|N].
  - split; [congruence|]. intros _. unfold fsign. destruct (Qccompare v 0) eqn:E.
    + apply Qceq_alt in E. subst v. cbn. split; [discriminate|]. intros C. exfalso. now apply (Qclt_not_eq 0 0).
    + apply Qclt_alt in E. cbn. split; [discriminate|]. intros C. exfalso. apply (Qclt_not_eq v v); [now apply Qclt_trans with 0%Qc|reflexivity].
    + apply Qcgt_alt in E. cbn. split; [intros _; exact E|reflexivity].
  - split; [|congruence]. intros _. cbn [flt]. now rewrite Qcltb_lt.
Qed.
Lemma binarizer_ok t n_jobs s s' X Y : (0 < t)%Qc -> (t <= 1)%Qc -> 1 <= n_jobs -> images s X -> 1 <= zlen s <= 3 -> (forall n, In n s -> 0 < n) -> images s' Y ->
  exists m, largest X m /\ exists R, binarizer t n_jobs X Y = Ok R /\
  Forall2 (fun y r => nshape r = nshape y /\ forall idx v, nget y idx = Some v -> exists b, nget r idx = Some b /\ is_binarized t m v b) Y R.
Proof.
  intros H0 H1 HJ HX HL HS HY. destruct (batch_max_ok s X HX HS) as [m [E HM]]. exists m. split; [assumption|]. unfold binarizer.
  rewrite (fit_shape_ok s X HX HL). cbn [bind]. destruct (Qcleb_spec t 0) as [C|_]; [exfalso; now apply (Qclt_not_le 0 t)|].
  destruct (Qcltb_spec 1 t) as [C|_]; [exfalso; now apply (Qclt_not_le 1 t)|]. cbn [orb]. rewrite E. cbn [bind].
  rewrite parallel_ok by (auto; apply HY). eexists. split; [reflexivity|]. clear HY. induction Y as [|y Y IH]; constructor; [|exact IH].
  split; [reflexivity|]. intros idx v Hv. rewrite at_nmap, Hv. eexists. split; [reflexivity|]. now apply fdiv_spec.
Qed.

(** *** Inverter *)
Lemma nmap_inv {A B} (f : A -> B) (g : B -> A) X : (forall a, g (f a) = a) -> map (nmap g) (map (nmap f) X) = X.
Proof.
  intros H. rewrite map_map. rewrite <- (map_id X) at 2. apply map_ext. intros x. rewrite nmap_nmap. unfold nmap. destruct x as [s d]. cbn [nshape ndata]. f_equal.
  rewrite <- (map_id d) at 2. now apply map_ext.
Qed.
Lemma map_nmap_ne {A B} (f : A -> B) X : X <> [] -> map (nmap f) X <> [].
Proof. destruct X; easy. Qed.

(** *** Padder *)
Lemma plus_length a : forall b, length a = length b -> length (plus_ a b) = length a.
Proof. induction a as [|i a IH]; intros [|j b] E; try discriminate; [reflexivity|]. cbn [plus_ length]. f_equal. apply IH. now injection E. Qed.
Lemma map2_sub a : forall b, map2 Z.sub a b = minus_ a b.
Proof. induction a as [|i a IH]; intros [|j b]; try reflexivity. cbn [map2 minus_]. now rewrite IH. Qed.
Lemma minus_plus a : forall b, length a = length b -> minus_ (plus_ a b) b = a.
Proof. induction a as [|i a IH]; intros [|j b] E; try discriminate; [reflexivity|]. cbn [plus_ minus_]. f_equal; [lia|]. apply IH. now injection E. Qed.
Lemma padded_shape s : forall p, map2 (fun n p => n + 2 * p) s p = plus_ (plus_ s p) p.
Proof. induction s as [|n s IH]; intros [|q p]; try reflexivity. cbn [map2 plus_]. rewrite IH. f_equal. lia. Qed.
Lemma inside_padded s : forall p idx, length s = length p -> (forall q, In q p -> 0 <= q) -> inside s idx = true -> inside (plus_ (plus_ s p) p) (plus_ idx p) = true.
Proof.
  induction s as [|n s IH]; intros [|q p] [|i idx] L P I; try discriminate; [reflexivity|]. apply inside_cons in I. cbn [plus_]. apply inside_cons. pose proof (P q (or_introl eq_refl)). split; [lia|].
  apply IH; [now injection L|intros; apply P; now right|apply I].
Qed.
Lemma pad_ok {A} p (value : A) x : zlen (nshape x) = zlen p -> (forall q, In q p -> 0 <= q) -> is_padded p value x (np_pad p value x).
Proof.
  intros L P. assert (L' : length (nshape x) = length p) by (unfold zlen in L; lia). unfold np_pad. rewrite padded_shape. split; [reflexivity|]. split.
  - intros idx v Hv. pose proof (at_inside _ _ _ Hv) as I. rewrite at_mk, inside_padded by assumption. rewrite map2_sub, minus_plus; [now rewrite Hv|].
    now rewrite (inside_length _ _ I).
  - intros idx I O. cbn [mk nshape] in I. rewrite at_mk, I. rewrite map2_sub. unfold nget. now rewrite O.
Qed.
Lemma wf_pad {A} p (value : A) x : wf x -> (forall q, In q p -> 0 <= q) -> wf (np_pad p value x).
Proof.
  intros [H _] P. apply wf_mk. rewrite padded_shape. revert p P H. generalize (nshape x). induction l as [|n l IH]; intros [|q p] P H m Hm; try easy. cbn [plus_] in Hm.
  destruct Hm as [<-|Hm]; [pose proof (P q (or_introl eq_refl)); pose proof (H n (or_introl eq_refl)); lia|]. apply (IH p); auto; intros; [apply P|apply H]; now right.
Qed.
Lemma padder_ok {A} p (value : A) n_jobs s s' X Y : 1 <= n_jobs -> images s X -> 1 <= zlen s <= 3 -> images s' Y -> zlen s' = zlen s ->
  match p with None => True | Some p => zlen p = zlen s /\ forall q, In q p -> 0 <= q end ->
  padder p value n_jobs X Y = Ok (map (np_pad (match p with Some p => p | None => map (fun _ => 1) s end) value) Y).
Proof.
  intros HJ HX HL HY ES HP. unfold padder, fit_padder. rewrite (fit_shape_ok s X HX HL). cbn [bind]. set (pp := match p with Some p => p | None => map (fun _ => 1) s end).
  assert (E : (match p with None => Ok (map (fun _ => 1) s) | Some p => if zlen p =? zlen s then Ok p else Err ValueError end) = Ok pp).
  { unfold pp. destruct p as [p|]; [|reflexivity]. destruct HP as [-> _]. now rewrite Z.eqb_refl. }
  assert (HPP : zlen pp = zlen s /\ forall q, In q pp -> 0 <= q).
  { unfold pp. destruct p as [p|]; [assumption|]. split; [apply zlen_map|]. intros q Hq. apply in_map_iff in Hq. destruct Hq as [? [<- _]]. lia. }
  rewrite E. cbn [bind]. unfold pad_batch. apply parallel_map; [assumption|apply HY|]. intros b Hb HI.
  assert (C : forallb (fun x : nd A => zlen (nshape x) =? zlen pp) b && forallb (fun p => 0 <=? p) pp = true).
  { apply andb_true_iff. split; apply forallb_forall.
    - intros x Hx. destruct HY as [_ HY]. destruct (HY x (HI x Hx)) as [_ Ex]. apply Z.eqb_eq. rewrite Ex. destruct HPP. lia.
    - intros q Hq. apply Z.leb_le. now apply HPP. }
  now rewrite C.
Qed.

(** *** ImageToPointCloud *)
Definition embed (x : nd Z) : list (list Z) := argwhere (swapaxes01 (flip0 x)).
Lemma embed_ok n m s x : wf x -> nshape x = n :: m :: s -> NoDup (embed x) /\ forall pt, In pt (embed x) <->
  exists idx v, nget x idx = Some v /\ v <> 0 /\ pt = point_of_pixel (nshape x) idx.
Proof.
  intros W ES. split; [apply NoDup_filter, NoDup_indices|]. intros pt. unfold embed, argwhere. rewrite filter_In, In_indices. rewrite ES.
  assert (EG : forall c r t, inside (m :: n :: s) (c :: r :: t) = true -> nget (swapaxes01 (flip0 x)) (c :: r :: t) = nget x (n - 1 - r :: c :: t)).
  { intros c r t I. unfold swapaxes01. rewrite at_mk. cbn [flip0 mk nshape]. rewrite ES. cbn [swap01]. rewrite I. apply inside_cons in I. destruct I as [I1 I2]. apply inside_cons in I2. destruct I2 as [I2 I3].
    unfold flip0. rewrite at_mk, ES. assert (I : inside (n :: m :: s) (r :: c :: t) = true) by (apply inside_cons; split; [lia|]; apply inside_cons; auto).
    rewrite I. destruct (at_Some x (n - 1 - r :: c :: t) W) as [v Hv]; [|now rewrite Hv]. rewrite ES. apply inside_cons; split; [lia|]; apply inside_cons; auto. }
  assert (SS : nshape (swapaxes01 (flip0 x)) = m :: n :: s) by (cbn [swapaxes01 flip0 mk nshape]; rewrite ES; reflexivity). rewrite SS. split.
  - intros [I V]. destruct pt as [|c [|r t]]; try discriminate; [cbn in I; now rewrite andb_false_r in I|]. rewrite (EG c r t I) in V.
    destruct (nget x (n - 1 - r :: c :: t)) as [v|] eqn:Ev; [|discriminate]. exists (n - 1 - r :: c :: t), v. split; [assumption|]. unfold nonzero in V. destruct (Z.eqb_spec v 0); [discriminate|].
    split; [assumption|]. cbn [point_of_pixel]. repeat f_equal. lia.
  - intros [idx [v [Hv [V ->]]]]. pose proof (at_inside _ _ _ Hv) as I. rewrite ES in I. destruct idx as [|r [|c t]]; try discriminate; [cbn in I; now rewrite andb_false_r in I|].
    apply inside_cons in I. destruct I as [I1 I2]. apply inside_cons in I2. destruct I2 as [I2 I3]. cbn [point_of_pixel].
    assert (I : inside (m :: n :: s) (c :: n - 1 - r :: t) = true) by (apply inside_cons; split; [lia|]; apply inside_cons; split; [lia|assumption]).
    split; [exact I|]. rewrite (EG _ _ _ I). replace (n - 1 - (n - 1 - r)) with r by lia. rewrite Hv. unfold nonzero. destruct (Z.eqb_spec v 0); [contradiction|reflexivity].
Qed.
