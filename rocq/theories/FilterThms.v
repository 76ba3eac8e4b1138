(** C64: the filter functions of Mapper. *)
From Coq Require Import Reals Lra Permutation.
From Verif Require Import Np NpFacts Fl FlFacts RNp RNormFacts FeatModel MetricSpec MetricProofs2 FeatProofs FilterModel FilterSpec StatThms.
Open Scope Z_scope.

(** ** Validation *)
Lemma mapM_xfin row : mapM xfin (map XFin row) = Ok row.
Proof. induction row as [|a l IH]; [reflexivity|]. cbn. rewrite IH. reflexivity. Qed.
Lemma mapM_rows T : mapM (mapM xfin) (map (map XFin) T) = Ok T.
Proof. induction T as [|a l IH]; [reflexivity|]. cbn [map mapM bind]. rewrite mapM_xfin. cbn [bind]. rewrite IH. reflexivity. Qed.
Lemma check_ok X T n d : finite_table X T n d -> check_array X = Ok T.
Proof.
  intros [[Hn [Hd [E Hrow]]] ->]. destruct T as [|[|a l] T].
  - cbn in E. lia.
  - specialize (Hrow [] (or_introl eq_refl)). cbn in Hrow. lia.
  - pose proof (mapM_rows ((a :: l) :: T)) as H. exact H.
Qed.
Lemma mapM_err {A B} (f : A -> res B) l : (forall x, In x l -> (exists y, f x = Ok y) \/ f x = Err ValueError) ->
  (exists x, In x l /\ f x = Err ValueError) -> mapM f l = Err ValueError.
Proof.
  induction l as [|a l IH]; intros H [x [Hx E]]; [easy|]. cbn [mapM]. destruct (H a (or_introl eq_refl)) as [[y Ey]|Ey]; rewrite Ey; cbn [bind]; [|reflexivity].
  rewrite IH; [reflexivity| |].
  - intros z Hz. apply H. now right.
  - destruct Hx as [->|Hx]; [congruence|]. eauto.
Qed.
Lemma mapM_ve {A B} (f : A -> res B) l : (forall x, In x l -> (exists y, f x = Ok y) \/ f x = Err ValueError) ->
  (exists y, mapM f l = Ok y) \/ mapM f l = Err ValueError.
Proof.
  induction l as [|a l IH]; intros H; [left; cbn; eauto|]. cbn [mapM]. destruct (H a (or_introl eq_refl)) as [[y Ey]|Ey]; rewrite Ey; cbn [bind]; [|now right].
  destruct IH as [[z Ez]|Ez]; [intros; apply H; now right| |]; rewrite Ez; cbn; eauto.
Qed.
Lemma xfin_cases v : (exists r, xfin v = Ok r) \/ xfin v = Err ValueError.
Proof. destruct v; cbn; eauto. Qed.
Lemma check_bad X d : X = [] \/ (forall row, In row X -> row = []) \/ bad_table X d -> check_array X = Err ValueError.
Proof.
  intros [->|[H|[Hd [row [v [Hr [Hv Hf]]]]]]]; [reflexivity| |].
  - destruct X as [|r X]; [reflexivity|]. rewrite (H r (or_introl eq_refl)). reflexivity.
  - assert (E : mapM (mapM xfin) X = Err ValueError).
    { apply mapM_err; [intros; apply mapM_ve; intros; apply xfin_cases|]. exists row. split; [assumption|].
      apply mapM_err; [intros; apply xfin_cases|]. exists v. split; [assumption|]. destruct v; try reflexivity. now destruct (Hf r). }
    destruct X as [|[|a l] X]; [reflexivity|reflexivity|exact E].
Qed.
(** Every filter rejects an empty array, an array without columns, and NaN or infinite entries. *)
Theorem filters_reject X d : X = [] \/ (forall row, In row X -> row = []) \/ bad_table X d ->
  (forall e m, eccentricity e m X = Err ValueError) /\ entropy_filter X = Err ValueError /\
  (forall c, projection c X = Err ValueError).
Proof.
  intros H. apply check_bad in H. unfold eccentricity, entropy_filter, projection. rewrite H. easy.
Qed.

(** ** Norms *)
Lemma rmin_spec l x : (In (rmin x l) (x :: l)) /\ forall y, In y (x :: l) -> (rmin x l <= y)%R.
Proof.
  revert x. induction l as [|a l IH]; intros x; cbn [rmin fold_left]; [split; [now left|]; intros y [->|[]]; lra|].
  fold (rmin (Rmin x a) l). destruct (IH (Rmin x a)) as [I L]. split.
  - destruct I as [I|I]; [|right; now right]. rewrite <- I. unfold Rmin. destruct (Rle_dec x a); [now left|right; now left].
  - pose proof (L _ (or_introl eq_refl)) as L0. pose proof (Rmin_l x a). pose proof (Rmin_r x a).
    intros y [<-|[<-|Hy]]; [lra|lra|]. apply L. now right.
Qed.
Lemma count_nonzero v : rsum (map (fun x => if is0 x then 0%R else 1%R) v)
  = IZR (zlen (filter (fun x => if Req_EM_T x 0 then false else true) v)).
Proof.
  induction v as [|a v IH]; [reflexivity|]. cbn [map filter]. rewrite rsum_cons, IH. unfold is0. destruct (Req_EM_T a 0); [lra|].
  rewrite zlen_cons, plus_IZR. lra.
Qed.
Lemma existsb_is0 v : existsb is0 v = true <-> In 0%R v.
Proof.
  rewrite existsb_exists. unfold is0. split.
  - intros [x [Hx E]]. destruct (Req_EM_T x 0); [now subst|discriminate].
  - intros H. exists 0%R. split; [assumption|]. destruct (Req_EM_T 0 0); [reflexivity|lra].
Qed.
Lemma total_exp_pos {A} (f : A -> R) l : l <> [] -> (0 < total (map (fun x => exp (f x)) l))%R.
Proof.
  intros N. destruct l as [|a l]; [easy|]. clear N. revert a. induction l as [|b l IH]; intros a; cbn [map total]; [pose proof (exp_pos (f a)); lra|].
  pose proof (exp_pos (f a)). specialize (IH b). cbn [map total] in IH. lra.
Qed.
Lemma negative_norm p v : (p < 0)%R -> v <> [] -> ~ In 0%R v ->
  (0 < norm (Pfin p) v)%R /\ exp (p * ln (norm (Pfin p) v)) = total (map (fun x => exp (p * ln (Rabs x))) v).
Proof.
  intros Hp N Z. unfold norm.
  assert (E : rsum (map (fun x => rpow (Rabs x) p) v) = total (map (fun x => exp (p * ln (Rabs x))) v)).
  { rewrite <- total_rsum. f_equal. apply map_ext_in. intros x Hx. unfold rpow. destruct (Req_EM_T (Rabs x) 0) as [E|E]; [|reflexivity].
    destruct (Req_EM_T x 0) as [->|Hx0]; [contradiction|]. apply Rabs_no_R0 in Hx0. lra. }
  rewrite E. pose proof (total_exp_pos (fun x => p * ln (Rabs x))%R v N) as T. set (t := total _) in *. unfold rpow. destruct (Req_EM_T t 0); [lra|].
  split; [apply exp_pos|]. unfold Rpower. rewrite ln_exp. replace (p * (1 / p * ln t))%R with (ln t) by (field; lra). now apply exp_ln.
Qed.
Lemma row_norm_ok o v : v <> [] -> exists r, row_norm o v = Ok r /\ is_order_norm o v r.
Proof.
  intros N. destruct o as [p| |]; unfold row_norm, is_order_norm.
  - destruct (Req_EM_T p 0) as [->|Hp].
    + eexists. split; [reflexivity|]. split; [intros _; apply count_nonzero|]. split; intros; lra.
    + destruct (Rlt_dec p 0) as [Hn|Hn]; cbn [andb].
      * destruct (existsb is0 v) eqn:E.
        -- exists 0%R. split; [reflexivity|]. apply existsb_is0 in E. split; [easy|]. split; [intros; lra|]. intros _. easy.
        -- eexists. split; [reflexivity|]. split; [easy|]. split; [intros; lra|]. intros _. assert (Z : ~ In 0%R v) by (rewrite <- existsb_is0; congruence).
           split; [easy|]. intros _. now apply negative_norm.
      * eexists. split; [reflexivity|]. split; [easy|]. split; [|intros; lra]. intros Hpos. apply norm_is_norm. exact Hpos.
  - destruct (map Rabs v) as [|a l] eqn:E; [destruct v; easy|]. eexists. split; [reflexivity|]. rewrite <- E. apply (norm_is_norm Pinf). exact I.
  - destruct (map Rabs v) as [|a l] eqn:E; [destruct v; easy|]. eexists. split; [reflexivity|]. destruct (rmin_spec l a) as [H1 H2]. rewrite <- E in *. split.
    + apply in_map_iff in H1. destruct H1 as [x [E1 H1]]. eauto.
    + intros x Hx. apply H2. now apply in_map.
Qed.
(** The norm of a given order is unique and does not depend on the order of the entries. *)
Theorem order_norm_unique o v r r' : is_order_norm o v r -> is_order_norm o v r' -> r = r'.
Proof.
  destruct o as [p| |]; unfold is_order_norm.
  - intros [A [B C]] [A' [B' C']]. destruct (Rtotal_order p 0) as [H|[H|H]].
    + destruct (C H) as [C1 C2], (C' H) as [C1' C2']. destruct (in_dec Req_EM_T 0%R v) as [I|I]; [now rewrite C1, C1'|].
      destruct (C2 I) as [P E], (C2' I) as [P' E']. rewrite <- E' in E. apply exp_inv in E. apply ln_inv; [assumption..|]. apply Rmult_eq_reg_l in E; [assumption|lra].
    + now rewrite A, A'.
    + rewrite (is_norm_unique (Pfin p) v r H (B H)), (is_norm_unique (Pfin p) v r' H (B' H)). reflexivity.
  - intros A B. now rewrite (is_norm_unique Pinf v r I A), (is_norm_unique Pinf v r' I B).
  - intros [[x [Hx E]] L] [[y [Hy E']] L']. specialize (L y Hy). specialize (L' x Hx). lra.
Qed.
Lemma total_perm l l' : Permutation l l' -> total l = total l'.
Proof. intros P. change total with rsum. now apply rsum_perm. Qed.
Lemma filter_perm {A} (f : A -> bool) l l' : Permutation l l' -> Permutation (filter f l) (filter f l').
Proof.
  induction 1; cbn; [constructor|destruct (f x); auto| |etransitivity; eassumption].
  destruct (f x), (f y); try reflexivity. constructor.
Qed.
Lemma zlen_perm {A} (l l' : list A) : Permutation l l' -> zlen l = zlen l'.
Proof. intros P. unfold zlen. now rewrite (Permutation_length P). Qed.
Theorem order_norm_perm o v v' r : Permutation v v' -> is_order_norm o v r -> is_order_norm o v' r.
Proof.
  intros P. assert (I : forall x, In x v <-> In x v') by (intros x; split; [apply Permutation_in, P|apply Permutation_in, Permutation_sym, P]).
  destruct o as [p| |]; unfold is_order_norm.
  - intros [A [B C]]. split; [|split].
    + intros H. rewrite (A H). f_equal. apply zlen_perm, filter_perm, P.
    + intros H. destruct (B H) as [N E]. split; [assumption|]. rewrite E. apply total_perm, Permutation_map, P.
    + intros H. destruct (C H) as [C1 C2]. rewrite <- I. split; [assumption|]. intros Z. destruct (C2 Z) as [Q E]. split; [assumption|]. rewrite E. apply total_perm, Permutation_map, P.
  - intros [N [L E]]. split; [assumption|]. split; [intros x Hx; apply L; now rewrite I|].
    destruct E as [[-> ->]|[x [Hx E]]]; [left|right; exists x; rewrite <- I; easy]. apply Permutation_nil in P. now subst.
  - intros [[x [Hx E]] L]. split; [exists x; rewrite <- I; easy|]. intros y Hy. apply L. now rewrite I.
Qed.

(** ** Eccentricity *)
Lemma Forall2_map_l {A B C} (f : A -> B) (P : B -> C -> Prop) l l' : Forall2 P (map f l) l' -> Forall2 (fun x => P (f x)) l l'.
Proof. revert l'. induction l as [|a l IH]; intros l' H; inversion H; subst; constructor; auto. Qed.
Definition column_of (e : order) (rows : list (list R)) (out : list (list R)) : Prop :=
  Forall2 (fun v row => exists r, row = [r] /\ is_order_norm e v r) rows out.
Lemma norms_ok e rows : (forall row, In row rows -> row <> []) ->
  exists out, mapM (fun row => do r <- row_norm e row; Ok [r]) rows = Ok out /\ column_of e rows out.
Proof.
  induction rows as [|a l IH]; intros H; [exists []; split; [reflexivity|constructor]|].
  destruct (row_norm_ok e a (H a (or_introl eq_refl))) as [r [Er Sr]]. destruct IH as [out [Eo So]]; [intros; apply H; now right|].
  exists ([r] :: out). cbn [mapM]. rewrite Er. cbn [bind]. rewrite Eo. split; [reflexivity|]. constructor; eauto.
Qed.
Lemma squareform_rows dist T : zlen (squareform_pdist dist T) = zlen T.
Proof. apply zlen_mapi. Qed.
Lemma squareform_entry dist T i x : Znth T i = Some x -> exists v, Znth (squareform_pdist dist T) i = Some v /\ zlen v = zlen T /\
  forall j y, Znth T j = Some y -> Znth v j = Some (if i =? j then 0%R else if i <? j then dist x y else dist y x).
Proof.
  intros H. unfold squareform_pdist. rewrite Znth_mapi, H. cbn [option_map]. eexists. split; [reflexivity|]. split.
  - apply zlen_mapi.
  - intros j y Hy. rewrite Znth_mapi, Hy. reflexivity.
Qed.
Lemma squareform_nonempty dist T row : In row (squareform_pdist dist T) -> row <> [].
Proof.
  intros H. apply In_Znth in H. destruct H as [i [_ Hi]]. assert (B : 0 <= i < zlen T). { rewrite <- (squareform_rows dist). eapply Znth_Some_lt. eassumption. }
  destruct (Znth_ex T i B) as [x Hx]. destruct (squareform_entry dist T i x Hx) as [v [E [L _]]]. rewrite E in Hi. injection Hi as <-. intros ->. cbn in L. lia.
Qed.
Lemma squareform_metric dist T : metric_like dist -> squareform_pdist dist T = map (fun x => map (dist x) T) T.
Proof.
  intros [D S]. apply Znth_ext; [now rewrite squareform_rows, zlen_map|]. intros i Hi. rewrite squareform_rows in Hi. rewrite Znth_map. destruct (Znth_ex T i Hi) as [x Hx].
  destruct (squareform_entry dist T i x Hx) as [v [E [L H]]]. rewrite E, Hx. cbn [option_map]. f_equal. apply Znth_ext; [now rewrite zlen_map|]. intros j Hj. rewrite L in Hj.
  rewrite Znth_map. destruct (Znth_ex T j Hj) as [y Hy]. rewrite (H j y Hy), Hy. cbn [option_map]. f_equal.
  destruct (Z.eqb_spec i j) as [->|]; [|destruct (i <? j); [reflexivity|apply S]]. rewrite Hx in Hy. injection Hy as ->. now rewrite D.
Qed.

(** Value i is the norm of the distances of point i to all points; the distance is evaluated with
    the point of lower index first. *)
Theorem eccentricity_spec e dist X T n d : finite_table X T n d ->
  exists out, eccentricity e (Some dist) X = Ok out /\ zlen out = n /\
    forall i x, Znth T i = Some x -> exists r v, Znth out i = Some [r] /\ is_order_norm e v r /\ zlen v = n /\
      forall j y, Znth T j = Some y -> Znth v j = Some (if i =? j then 0%R else if i <? j then dist x y else dist y x).
Proof.
  intros F. unfold eccentricity. rewrite (check_ok _ _ _ _ F). cbn [bind]. destruct (norms_ok e (squareform_pdist dist T)) as [out [E S]]; [apply squareform_nonempty|].
  destruct F as [[_ [_ [Hn _]]] _]. exists out. split; [assumption|]. split; [rewrite <- (Forall2_zlen _ _ _ S), squareform_rows; assumption|].
  intros i x Hx. destruct (squareform_entry dist T i x Hx) as [v [Ev [L H]]]. assert (B : 0 <= i < zlen out).
  { rewrite <- (Forall2_zlen _ _ _ S). eapply Znth_Some_lt. eassumption. }
  destruct (Znth_ex out i B) as [row Hr]. destruct (Forall2_Znth _ _ _ _ _ _ S Ev Hr) as [r [-> Sr]]. exists r, v. rewrite <- Hn. auto.
Qed.
(** For a metric: the norm of all distances from the point. *)
Theorem eccentricity_metric e dist X T n d : finite_table X T n d -> metric_like dist ->
  exists out, eccentricity e (Some dist) X = Ok out /\
    Forall2 (fun x row => exists r, row = [r] /\ is_order_norm e (map (dist x) T) r) T out.
Proof.
  intros F M. unfold eccentricity. rewrite (check_ok _ _ _ _ F). cbn [bind]. destruct (norms_ok e (squareform_pdist dist T)) as [out [E S]]; [apply squareform_nonempty|].
  exists out. split; [assumption|]. rewrite (squareform_metric dist T M) in S. apply Forall2_map_l in S. exact S.
Qed.
(** A precomputed matrix: the norms of its rows (it need not be square). *)
Theorem eccentricity_precomputed e X T n d : finite_table X T n d ->
  exists out, eccentricity e None X = Ok out /\ Forall2 (fun v row => exists r, row = [r] /\ is_order_norm e v r) T out.
Proof.
  intros F. unfold eccentricity. rewrite (check_ok _ _ _ _ F). cbn [bind]. destruct (norms_ok e T) as [out [E S]]; [|eauto].
  destruct F as [[_ [Hd [_ H]]] _]. intros row Hr ->. specialize (H [] Hr). cbn in H. lia.
Qed.
(** Points and their distance matrix give the same values. *)
Theorem eccentricity_points_and_matrix e dist X T n d : finite_table X T n d -> metric_like dist ->
  eccentricity e (Some dist) X = eccentricity e None (map (fun x => map (fun y => XFin (dist x y)) T) T).
Proof.
  intros F M. unfold eccentricity. rewrite (check_ok _ _ _ _ F). cbn [bind]. rewrite (squareform_metric dist T M).
  rewrite (check_ok (map (fun x => map (fun y => XFin (dist x y)) T) T) (map (fun x => map (dist x) T) T) n n); [reflexivity|].
  destruct F as [[Hn [_ [E _]]] _]. split.
  - split; [assumption|]. split; [assumption|]. rewrite zlen_map. split; [assumption|]. intros row H. apply in_map_iff in H. destruct H as [x [<- _]]. now rewrite zlen_map.
  - rewrite map_map. apply map_ext. intros x. now rewrite map_map.
Qed.
(** The value of a point depends on the set of points, not on their order. *)
Theorem eccentricity_order e dist X X' T T' n d out out' : finite_table X T n d -> finite_table X' T' n d -> metric_like dist -> Permutation T T' ->
  eccentricity e (Some dist) X = Ok out -> eccentricity e (Some dist) X' = Ok out' ->
  forall i i' x, Znth T i = Some x -> Znth T' i' = Some x -> exists r, Znth out i = Some [r] /\ Znth out' i' = Some [r].
Proof.
  intros F F' M P E E' i i' x Hx Hx'. destruct (eccentricity_metric e dist X T n d F M) as [o [Eo S]]. rewrite E in Eo. injection Eo as <-.
  destruct (eccentricity_metric e dist X' T' n d F' M) as [o' [Eo' S']]. rewrite E' in Eo'. injection Eo' as <-.
  destruct (Znth_ex out i) as [row Hr]; [rewrite <- (Forall2_zlen _ _ _ S); eapply Znth_Some_lt; eassumption|].
  destruct (Znth_ex out' i') as [row' Hr']; [rewrite <- (Forall2_zlen _ _ _ S'); eapply Znth_Some_lt; eassumption|].
  destruct (Forall2_Znth _ _ _ _ _ _ S Hx Hr) as [r [-> N]]. destruct (Forall2_Znth _ _ _ _ _ _ S' Hx' Hr') as [r' [-> N']].
  exists r. split; [assumption|]. rewrite Hr'. do 2 f_equal. symmetry. eapply order_norm_unique; [|eassumption]. eapply order_norm_perm; [|eassumption]. now apply Permutation_map.
Qed.
(** A defect: since every point is at distance 0 of itself, all values are 0 for a negative exponent
    and for -inf. *)
Theorem eccentricity_negative e dist X T n d : finite_table X T n d ->
  match e with Ofin p => (p < 0)%R | ONinf => True | OPinf => False end ->
  exists out, eccentricity e (Some dist) X = Ok out /\ zlen out = n /\ forall row, In row out -> row = [0%R].
Proof.
  intros F He. destruct (eccentricity_spec e dist X T n d F) as [out [E [L H]]]. exists out. split; [assumption|]. split; [assumption|].
  intros row Hr. apply In_Znth in Hr. destruct Hr as [i [_ Hi]]. pose proof F as [[_ [_ [Hn _]]] _].
  destruct (Znth_ex T i) as [x Hx]; [pose proof (Znth_Some_lt _ _ _ Hi); lia|]. destruct (H i x Hx) as [r [v [Hr [N [Lv Hv]]]]]. rewrite Hi in Hr. injection Hr as ->. do 2 f_equal.
  specialize (Hv i x Hx). rewrite Z.eqb_refl in Hv. apply Znth_In in Hv. destruct e as [p| |]; [|easy|].
  - destruct N as [_ [_ N]]. now apply N.
  - destruct N as [[y [Hy <-]] N]. specialize (N _ Hv). rewrite Rabs_R0 in N. pose proof (Rabs_pos y). lra.
Qed.

(** ** Entropy *)
Lemma total_nonneg_zero l : (forall x, In x l -> (0 <= x)%R) -> total l = 0%R -> forall x, In x l -> x = 0%R.
Proof. change total with rsum. apply rsum_eq0. Qed.
Lemma total_filter l : total (filter (fun x => if Req_EM_T x 0 then false else true) l) = total l.
Proof. induction l as [|a l IH]; [reflexivity|]. cbn. destruct (Req_EM_T a 0); cbn; rewrite IH; lra. Qed.
Lemma entr_filter s l : rsum (map (fun x => entr (x / s)) (filter (fun x => if Req_EM_T x 0 then false else true) l)) = rsum (map (fun x => entr (x / s)) l).
Proof.
  induction l as [|a l IH]; [reflexivity|]. cbn [filter map]. rewrite rsum_cons. destruct (Req_EM_T a 0) as [->|]; cbn [map]; rewrite ?rsum_cons, IH; [|reflexivity].
  unfold entr, Rdiv. rewrite Rmult_0_l. destruct (Req_EM_T 0 0); lra.
Qed.
Lemma weights_positive row : positive (weights row).
Proof.
  intros x Hx. apply filter_In in Hx. destruct Hx as [Hx E]. destruct (Req_EM_T x 0); [discriminate|]. apply in_map_iff in Hx. destruct Hx as [y [<- _]]. pose proof (Rabs_pos y). lra.
Qed.
Lemma weights_nil row : weights row = [] <-> forall x, In x row -> x = 0%R.
Proof.
  unfold weights. induction row as [|a row IH]; [easy|]. cbn [map filter]. destruct (Req_EM_T (Rabs a) 0) as [E|E].
  - rewrite IH. assert (a = 0%R) by (destruct (Req_EM_T a 0) as [|N]; [assumption|now apply Rabs_no_R0 in N]). split; [intros H' x [<-|Hx]; auto|]. intros H' x Hx. apply H'. now right.
  - split; [easy|]. intros H. rewrite (H a (or_introl eq_refl)), Rabs_R0 in E. lra.
Qed.
Lemma entropy2_weights row : row <> [] ->
  entropy2 (map Rabs row) = match weights row with [] => XNaN | w => XFin (shannon w) end.
Proof.
  intros N. destruct (weights row) as [|w ws] eqn:E.
  - unfold entropy2. destruct (map Rabs row) as [|a l] eqn:Em; [destruct row; easy|]. rewrite <- Em. destruct (Req_EM_T (rsum (map Rabs row)) 0) as [|H]; [reflexivity|]. exfalso. apply H.
    change rsum with total. rewrite <- total_filter. fold (weights row). now rewrite E.
  - rewrite <- E. rewrite <- entropy2_shannon; [|apply weights_positive|congruence].
    unfold entropy2. destruct (map Rabs row) as [|a l] eqn:Em; [destruct row; easy|]. rewrite E. rewrite <- Em, <- E.
    assert (Es : rsum (weights row) = rsum (map Rabs row)) by (change rsum with total; unfold weights; apply total_filter).
    rewrite Es. destruct (Req_EM_T (rsum (map Rabs row)) 0); [reflexivity|]. do 2 f_equal. symmetry. apply entr_filter.
Qed.
Lemma abs_rows T : (if existsb (existsb (fun x => if Rlt_dec x 0 then true else false)) T then map (map Rabs) T else T) = map (map Rabs) T.
Proof.
  destruct (existsb _ T) eqn:E; [reflexivity|]. rewrite <- (map_id T) at 1. apply map_ext_in. intros row Hr. rewrite <- (map_id row) at 1. apply map_ext_in. intros x Hx.
  destruct (Rlt_dec x 0) as [H|H]; [|rewrite Rabs_right; lra]. exfalso. assert (existsb (existsb (fun x => if Rlt_dec x 0 then true else false)) T = true); [|congruence].
  apply existsb_exists. exists row. split; [assumption|]. apply existsb_exists. exists x. split; [assumption|]. now destruct (Rlt_dec x 0).
Qed.
(** Value i is the entropy of row i, whatever the other rows; NaN for a row of zeros. *)
Theorem entropy_filter_spec X T n d : finite_table X T n d ->
  exists out, entropy_filter X = Ok out /\
    Forall2 (fun row o => ((forall x, In x row -> x = 0%R) -> o = [XNaN]) /\
                          ((exists x, In x row /\ x <> 0%R) -> o = [XFin (shannon (weights row))])) T out.
Proof.
  intros F. unfold entropy_filter. rewrite (check_ok _ _ _ _ F). cbn [bind]. eexists. split; [reflexivity|]. rewrite abs_rows, map_map.
  destruct F as [[_ [Hd [_ H]]] _]. clear X. induction T as [|row T IH]; [constructor|]. cbn [map]. constructor; [|apply IH; intros; apply H; now right].
  rewrite entropy2_weights; [|intros ->; specialize (H [] (or_introl eq_refl)); cbn in H; lia]. split.
  - intros Z. apply weights_nil in Z. now rewrite Z.
  - intros [x [Hx Nx]]. destruct (weights row) eqn:E; [|reflexivity]. rewrite weights_nil in E. now apply E in Hx.
Qed.
(** The entropy lies between 0 and log2 of the number of non-zero entries; it is 0 iff there is only
    one such entry, and multiplying a row by a non-zero constant does not change it. *)
Theorem entropy_filter_range row : (exists x, In x row /\ x <> 0%R) ->
  (0 <= shannon (weights row) <= log2 (IZR (zlen (weights row))))%R /\
  (shannon (weights row) = 0%R <-> zlen (weights row) = 1).
Proof.
  intros [x [Hx Nx]]. pose proof (weights_positive row) as P. assert (N : weights row <> []) by (intros E; rewrite weights_nil in E; now apply E in Hx).
  split; [split; [now apply shannon_nonneg|now apply shannon_le]|]. split; [|now apply shannon_one]. intros E. destruct (Z.eq_dec (zlen (weights row)) 1) as [|H]; [assumption|].
  pose proof (shannon_pos _ P N H). lra.
Qed.
Theorem entropy_filter_scale c row : c <> 0%R -> shannon (weights (map (fun x => c * x)%R row)) = shannon (weights row).
Proof.
  intros Hc. assert (E : weights (map (fun x => c * x)%R row) = map (fun x => Rabs c * x)%R (weights row)).
  { unfold weights. pose proof (Rabs_no_R0 c Hc) as Hc'. induction row as [|a row IH]; [reflexivity|]. cbn [map filter]. rewrite Rabs_mult.
    destruct (Req_EM_T (Rabs c * Rabs a) 0) as [E|E], (Req_EM_T (Rabs a) 0) as [E'|E'].
    - apply IH.
    - apply Rmult_integral in E. tauto.
    - exfalso. apply E. rewrite E'. ring.
    - cbn [map]. f_equal. apply IH. }
  rewrite E. apply shannon_scale; [|apply weights_positive]. now apply Rabs_pos_lt.
Qed.
(** A defect: one row of zeros and the output is not accepted by the next step (any step that
    checks its input). *)
Theorem entropy_filter_zero_row X T n d out : finite_table X T n d -> entropy_filter X = Ok out ->
  (exists row, In row T /\ forall x, In x row -> x = 0%R) <-> check_array out = Err ValueError.
Proof.
  intros F E. destruct (entropy_filter_spec X T n d F) as [o [Eo S]]. rewrite E in Eo. injection Eo as <-. split.
  - intros [row [Hr Z]]. apply (check_bad out 1). right. right. apply In_Znth in Hr. destruct Hr as [i [_ Hi]].
    assert (SH : forall r, In r out -> zlen r = 1).
    { intros r Hr. apply In_Znth in Hr. destruct Hr as [j [_ Hj]]. destruct (Znth_ex T j) as [y Hy]; [rewrite (Forall2_zlen _ _ _ S); eapply Znth_Some_lt; eassumption|].
      destruct (Forall2_Znth _ _ _ _ _ _ S Hy Hj) as [A B]. destruct (weights y) eqn:Ew.
      - rewrite weights_nil in Ew. now rewrite (A Ew).
      - assert (~ forall x, In x y -> x = 0%R) as NZ by (rewrite <- weights_nil; congruence).
        destruct (Exists_dec (fun x => x <> 0%R) y) as [Q|Q]; [intros x; destruct (Req_EM_T x 0); [right; tauto|now left]| |].
        + rewrite Exists_exists in Q. now rewrite (B Q).
        + exfalso. apply NZ. intros x Hx. destruct (Req_EM_T x 0); [assumption|]. exfalso. apply Q. rewrite Exists_exists. eauto. }
    split; [exact SH|]. destruct (Znth_ex out i) as [r Hr]; [rewrite <- (Forall2_zlen _ _ _ S); eapply Znth_Some_lt; eassumption|].
    destruct (Forall2_Znth _ _ _ _ _ _ S Hi Hr) as [A _]. exists r, XNaN. rewrite (A Z) in *. split; [eapply Znth_In; eassumption|]. split; [now left|]. easy.
  - intros C. destruct (Exists_dec (fun row => forall x, In x row -> x = 0%R) T) as [Q|Q].
    + intros row. destruct (weights row) eqn:Ew; [left|right]; rewrite <- weights_nil; [assumption|congruence].
    + rewrite Exists_exists in Q. destruct Q as [row [H1 H2]]. eauto.
    + exfalso. assert (EO : out = map (map XFin) (map (fun row => [shannon (weights row)]) T)).
      { clear E C F. induction S as [|row o T' out' [A B] S IH]; [reflexivity|]. cbn [map]. f_equal; [|apply IH; intros H; apply Q; now right].
        apply B. destruct (Exists_dec (fun x => x <> 0%R) row) as [P|P]; [intros x; destruct (Req_EM_T x 0); [right; tauto|now left]|now rewrite Exists_exists in P|].
        exfalso. apply Q. left. intros x Hx. destruct (Req_EM_T x 0); [assumption|]. exfalso. apply P. rewrite Exists_exists. eauto. }
      rewrite (check_ok out (map (fun row => [shannon (weights row)]) T) n 1) in C; [discriminate|]. split; [|assumption].
      destruct F as [[Hn [_ [L _]]] _]. split; [assumption|]. split; [lia|]. rewrite zlen_map. split; [assumption|]. intros row H. apply in_map_iff in H. destruct H as [? [<- _]]. reflexivity.
Qed.
