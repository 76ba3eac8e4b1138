(** C10: PermutationEntropy. *)
From Coq Require Import Reals Lra Permutation Sorted.
From Verif Require Import Np NpFacts Fl RNp RNormFacts MetricSpec FeatModel FeatProofs ImgModel ImgProofs2 RescaleSpec StatModel StatSpec.
Open Scope Z_scope.

Lemma lex_eq u v : lex u v = Eq <-> u = v.
Proof.
  revert v; induction u as [|a u IH]; intros [|b v]; cbn [lex]; try easy. split.
  - destruct (Z.compare_spec a b); try easy. intro H1. apply IH in H1. congruence.
  - intros [= -> ->]. rewrite Z.compare_refl. now apply IH.
Qed.
Lemma lex_gt u v : lex u v = Gt <-> lex v u = Lt.
Proof.
  revert v; induction u as [|a u IH]; intros [|b v]; cbn [lex]; try easy. rewrite (Z.compare_antisym a b).
  destruct (a ?= b) eqn:E; cbn; [apply IH|easy|easy].
Qed.
Lemma lex_trans u v w : lex u v = Lt -> lex v w = Lt -> lex u w = Lt.
Proof.
  revert v w; induction u as [|a u IH]; intros [|b v] [|c w]; cbn [lex]; try easy.
  destruct (Z.compare_spec a b); try easy; destruct (Z.compare_spec b c); try easy; intros; subst.
  - rewrite Z.compare_refl. eauto.
  - now rewrite (proj2 (Z.compare_lt_iff b c)).
  - now rewrite (proj2 (Z.compare_lt_iff a c)).
  - rewrite (proj2 (Z.compare_lt_iff a c)); auto. lia.
Qed.

Definition lexlt (p q : list Z * Z) := lex (fst p) (fst q) = Lt.
Lemma count_in_lt p l r : lexlt r (p, 0) -> Forall (lexlt r) l -> Forall (lexlt r) (count_in p l).
Proof.
  intro R. induction l as [|[q c] t IH]; intro F; cbn [count_in]; [repeat constructor; exact R|].
  inversion F; subst. destruct (lex p q) eqn:E; [constructor; auto|constructor; auto; exact R|constructor; auto].
Qed.
Lemma count_in_sorted p l : StronglySorted lexlt l -> StronglySorted lexlt (count_in p l).
Proof.
  induction l as [|[q c] t IH]; intro S; cbn [count_in]; [repeat constructor|].
  inversion S as [|? ? S1 F]; subst. destruct (lex p q) eqn:E.
  - constructor; auto.
  - constructor; auto. constructor; [exact E|]. apply Forall_forall. intros r I. rewrite Forall_forall in F. specialize (F r I).
    unfold lexlt in *. cbn [fst] in *. eapply lex_trans; eauto.
  - constructor; auto. apply count_in_lt; auto. unfold lexlt. cbn. now apply lex_gt.
Qed.
Lemma occurrences_cons p q l : occurrences p (q :: l) = (if list_eq_dec Z.eq_dec q p then 1 else 0) + occurrences p l.
Proof. unfold occurrences. cbn [filter]. destruct (list_eq_dec Z.eq_dec q p); [rewrite zlen_cons; lia|lia]. Qed.
Lemma occurrences_pos p l : 0 < occurrences p l <-> In p l.
Proof.
  induction l as [|q l IH]; [unfold occurrences; cbn; split; [unfold zlen; cbn; lia|easy]|].
  rewrite occurrences_cons. cbn [In]. assert (0 <= occurrences p l) by (unfold occurrences; apply zlen_nonneg).
  destruct (list_eq_dec Z.eq_dec q p); split; auto; try lia.
  - intros. right. apply IH. lia.
  - intros [?|?]; [easy|]. rewrite <- IH in H0. lia.
Qed.
Lemma unique_sorted x : StronglySorted lexlt (unique_counts x).
Proof. induction x; [constructor|]. cbn. now apply count_in_sorted. Qed.
Lemma In_count_in p l q c : StronglySorted lexlt l ->
  (In (q, c) (count_in p l) <-> (q <> p /\ In (q, c) l) \/ (q = p /\ ((In (q, c - 1) l) \/ (c = 1 /\ forall c', ~ In (q, c') l)))).
Proof.
  induction l as [|[r d] t IH]; intro S; cbn [count_in].
  - cbn. split; [intros [[= <- <-]|[]]; right; auto|]. intros [[? []]|[-> [[]|[-> _]]]]. auto.
  - inversion S as [|? ? S1 F]; subst. destruct (lex p r) eqn:E.
    + apply lex_eq in E as ->. cbn [In]. split.
      * intros [[= <- <-]|I]; [right; split; auto; left; left; f_equal; lia|].
        left. split; [|now right]. intros ->. rewrite Forall_forall in F. specialize (F _ I). unfold lexlt in F. cbn in F.
        assert (lex r r = Eq) by now apply lex_eq. congruence.
      * intros [[N [[= -> ->]|I]]|[-> [[[= ->]|I]|[-> C]]]]; auto; [easy|left; f_equal; lia| |destruct (C d); now left].
        exfalso. rewrite Forall_forall in F. specialize (F _ I). unfold lexlt in F. cbn in F. assert (lex r r = Eq) by now apply lex_eq. congruence.
    + cbn [In]. assert (N : forall c', ~ In (p, c') ((r, d) :: t)).
      { intros c' [[= -> ->]|I]; [assert (lex p p = Eq) by (now apply lex_eq); congruence|].
        rewrite Forall_forall in F. specialize (F _ I). unfold lexlt in F. cbn in F. pose proof (lex_trans _ _ _ E F).
        assert (lex p p = Eq) by now apply lex_eq. congruence. }
      split.
      * intros [[= <- <-]|I]; [right; split; auto|]. left. split; auto. intros ->. exact (N c I).
      * intros [[N' I]|[-> [I|[-> C]]]]; auto. destruct (N (c - 1)); auto.
    + cbn [In]. rewrite (IH S1). assert (N : r <> p) by (intros ->; assert (lex p p = Eq) by (now apply lex_eq); congruence). split.
      * intros [[= <- <-]|[[N' I]|[-> [I|[-> C]]]]]; auto. right. split; auto. right. split; auto.
        intros c' [[= -> ->]|I]; [easy|exact (C _ I)].
      * intros [[N' [[= -> ->]|I]]|[-> [[[= ->]|I]|[-> C]]]]; auto; [easy|]. right. right. split; auto. right. split; auto.
        intros c' I. apply (C c'). auto.
Qed.
Lemma In_unique x q c : In (q, c) (unique_counts x) <-> In q x /\ c = occurrences q x.
Proof.
  revert c. induction x as [|p x IH]; intro c; [cbn; easy|]. cbn [unique_counts fold_right]. fold (unique_counts x).
  rewrite In_count_in by apply unique_sorted. rewrite occurrences_cons. cbn [In]. rewrite !IH. destruct (list_eq_dec Z.eq_dec p q) as [->|N].
  - split.
    + intros [[? _]|[_ [[I E]|[-> C]]]]; [easy|split; auto; lia|]. split; auto.
      destruct (Z.lt_trichotomy 0 (occurrences q x)) as [L|[<-|L]]; [|lia|unfold occurrences in L; pose proof (zlen_nonneg (filter (fun q0 => if list_eq_dec Z.eq_dec q0 q then true else false) x)); lia].
      exfalso. apply occurrences_pos in L. apply (C (occurrences q x)). now apply IH.
    + intros [_ ->]. right. split; auto. destruct (in_dec (list_eq_dec Z.eq_dec) q x) as [I|I]; [left; split; auto; lia|].
      right. assert (occurrences q x = 0).
      { destruct (Z.lt_trichotomy 0 (occurrences q x)) as [L|[<-|L]]; auto; [now apply occurrences_pos in L|].
        unfold occurrences in L; pose proof (zlen_nonneg (filter (fun q0 => if list_eq_dec Z.eq_dec q0 q then true else false) x)); lia. }
      split; [lia|]. intros c' H'. now apply IH in H'.
  - split.
    + intros [[? [I ->]]|[-> _]]; [split; auto|easy].
    + intros [[?|I] ->]; [easy|]. left. split; auto. 
Qed.
Lemma unique_keys x : lists_the_different x (map fst (unique_counts x)).
Proof.
  split.
  - pose proof (unique_sorted x) as S. induction S as [|p l S IH F]; cbn; constructor; auto.
    intro I. apply in_map_iff in I as (q & E & I). rewrite Forall_forall in F. specialize (F q I). unfold lexlt in F. rewrite E in F.
    assert (lex (fst p) (fst p) = Eq) by now apply lex_eq. congruence.
  - intro p. rewrite in_map_iff. split.
    + intros ([q c] & <- & I). now apply In_unique in I.
    + intro I. exists (p, occurrences p x). split; auto. now apply In_unique.
Qed.
Lemma unique_values x : map (fun c => IZR (snd c)) (unique_counts x) = map (fun p => IZR (occurrences p x)) (map fst (unique_counts x)).
Proof.
  rewrite map_map. apply map_ext_in. intros [q c] I. apply In_unique in I as [_ ->]. reflexivity.
Qed.
Lemma occurrences_positive x pats : (forall p, In p pats -> In p x) -> positive (map (fun p => IZR (occurrences p x)) pats).
Proof. intros H l I. apply in_map_iff in I as (p & <- & I). apply IZR_lt. now apply occurrences_pos, H. Qed.
Lemma entropy2_shannon ls : positive ls -> ls <> [] -> entropy2 ls = XFin (shannon ls).
Proof.
  intros P N. pose proof (positive_sum ls P N) as T. unfold entropy2. destruct ls as [|a ls]; [easy|].
  destruct (Req_EM_T (rsum (a :: ls)) 0) as [E|E]; [change (total (a :: ls)) with (rsum (a :: ls)) in T; lra|].
  rewrite shannon_eq. f_equal. change (total (a :: ls)) with (rsum (a :: ls)) in *. change total with rsum. f_equal. f_equal. apply map_ext_in. intros x I. unfold entr.
  specialize (P x I). destruct (Req_EM_T (x / rsum (a :: ls)) 0) as [E'|]; [|reflexivity].
  exfalso. assert (0 < x / rsum (a :: ls))%R; [|lra]. apply Rdiv_lt_0_compat; lra.
Qed.
Lemma different_perm {A} (l p p' : list A) : lists_the_different l p -> lists_the_different l p' -> Permutation p p'.
Proof. intros [N I] [N' I']. apply NoDup_Permutation; auto. intro x. now rewrite I, I'. Qed.
Lemma entropy_2d_spec x pats : x <> [] -> lists_the_different x pats ->
  entropy_2d x = XFin (shannon (map (fun p => IZR (occurrences p x)) pats)).
Proof.
  intros N D. unfold entropy_2d. rewrite unique_values. pose proof (unique_keys x) as K.
  rewrite entropy2_shannon.
  - f_equal. apply shannon_perm. apply Permutation_map. eapply different_perm; eauto.
  - apply occurrences_positive. apply K.
  - destruct x as [|p x]; [easy|]. assert (I : In p (map fst (unique_counts (p :: x)))) by (apply K; now left).
    intro E. apply map_eq_nil in E. rewrite E in I. destruct I.
Qed.

Section Permutation.
Variable argsort : list R -> list Z.
(** The entropy, in bits, of the frequencies of the different order patterns, for each cloud. *)
Theorem permutation_entropy_spec n_jobs X : 1 <= n_jobs -> X <> [] -> (forall x, In x X -> x <> []) ->
  exists V, permutation_entropy argsort n_jobs X = Ok V /\
    Forall2 (fun x row => exists h, row = [XFin h] /\ forall pats, lists_the_different (map argsort x) pats ->
      h = shannon (map (fun p => IZR (occurrences p (map argsort x))) pats)) X V.
Proof.
  intros J NX N. unfold permutation_entropy, permutation_entropy_. rewrite parallel_ok by auto. eexists. split; [reflexivity|].
  clear NX. induction X as [|x X IH]; cbn [map]; constructor; [|apply IH; intros; apply N; now right].
  unfold permutation_entropy1. assert (NX : map argsort x <> []).
  { intro E. apply map_eq_nil in E. revert E. apply N. now left. }
  pose proof (entropy_2d_spec _ _ NX (unique_keys (map argsort x))) as E. rewrite E. eexists. split; [reflexivity|]. intros pats D.
  pose proof (entropy_2d_spec _ _ NX D). congruence.
Qed.

(** Order and multiplicity: reordering the points of the clouds, or changing n_jobs, changes nothing. *)
Theorem permutation_entropy_reorder n_jobs n_jobs' X X' : 1 <= n_jobs -> 1 <= n_jobs' -> (forall x, In x X -> x <> []) ->
  Forall2 (@Permutation _) X X' -> permutation_entropy argsort n_jobs X = permutation_entropy argsort n_jobs' X'.
Proof.
  intros J J' N F. destruct X as [|x0 X0]; [inversion F; reflexivity|]. destruct X' as [|x1 X1]; [inversion F|].
  unfold permutation_entropy, permutation_entropy_. rewrite !parallel_ok by easy. f_equal.
  revert N F. generalize (x0 :: X0) (x1 :: X1). clear. intros X X' N F. induction F as [|x x' X X' P F IH]; [reflexivity|]. cbn [map].
  f_equal; [|apply IH; intros; apply N; now right]. unfold permutation_entropy1. f_equal.
  assert (NX : map argsort x <> []) by (intro E; apply map_eq_nil in E; revert E; apply N; now left).
  assert (PM : Permutation (map argsort x) (map argsort x')) by now apply Permutation_map.
  rewrite (entropy_2d_spec _ _ NX (unique_keys _)).
  rewrite (entropy_2d_spec (map argsort x') (map fst (unique_counts (map argsort x)))).
  - do 2 f_equal. apply map_ext. intro p. f_equal. unfold occurrences. unfold zlen. f_equal.
    clear - PM. induction PM; cbn [filter]; auto; repeat (destruct (list_eq_dec _ _ _)); cbn; lia.
  - intro E. rewrite E in PM. apply Permutation_sym, Permutation_nil in PM. easy.
  - destruct (unique_keys (map argsort x)) as [ND I]. split; auto. intro p. rewrite I. split; apply Permutation_in; auto. now apply Permutation_sym.
Qed.

(** For an argsort by comparisons only the order patterns matter. *)
Theorem permutation_entropy_order n_jobs X X' : comparison_argsort argsort -> 1 <= n_jobs ->
  Forall2 (Forall2 same_order) X X' -> permutation_entropy argsort n_jobs X = permutation_entropy argsort n_jobs X'.
Proof.
  intros [_ C] J F. destruct X as [|x0 X0]; [inversion F; reflexivity|]. destruct X' as [|x1 X1]; [inversion F|].
  unfold permutation_entropy, permutation_entropy_. rewrite !parallel_ok by easy. f_equal.
  revert F. generalize (x0 :: X0) (x1 :: X1). intros X X' F. clear - F C. induction F as [|x x' X X' P F IH]; [reflexivity|]. cbn [map].
  f_equal; [|exact IH]. unfold permutation_entropy1. do 2 f_equal. induction P; cbn; f_equal; auto.
Qed.
Theorem permutation_entropy_increasing n_jobs X (f : R -> R) : comparison_argsort argsort -> 1 <= n_jobs ->
  (forall a b, (a < b -> f a < f b)%R) ->
  permutation_entropy argsort n_jobs (map (map (map f)) X) = permutation_entropy argsort n_jobs X.
Proof.
  intros C J M. symmetry. apply permutation_entropy_order; auto.
  induction X as [|x X IH]; cbn; constructor; auto. clear IH. induction x as [|u x IH]; cbn; constructor; auto.
  split; [now rewrite zlen_map|]. intros i j a b c d Ha Hb Hc Hd. rewrite Znth_map in Hc, Hd. rewrite Ha in Hc. rewrite Hb in Hd. cbn in Hc, Hd.
  injection Hc as <-. injection Hd as <-. split; [apply M|]. intro L. destruct (Rtotal_order a b) as [?|[->|G]]; auto; [lra|]. apply M in G. lra.
Qed.

Fixpoint inserts {A} (a : A) (l : list A) : list (list A) :=
  (a :: l) :: match l with [] => [] | b :: t => map (cons b) (inserts a t) end.
Fixpoint perms {A} (l : list A) : list (list A) :=
  match l with [] => [[]] | a :: t => flat_map (inserts a) (perms t) end.
Lemma inserts_length {A} (a : A) l : length (inserts a l) = S (length l).
Proof. induction l; cbn; auto. rewrite map_length, IHl. reflexivity. Qed.
Lemma inserts_In {A} (a : A) l r : In (l ++ a :: r) (inserts a (l ++ r)).
Proof. induction l as [|b l IH]; cbn; [destruct r; cbn; auto|]. right. now apply in_map. Qed.
Lemma inserts_elt {A} (a : A) l p : In p (inserts a l) -> length p = S (length l).
Proof.
  revert p; induction l as [|b l IH]; intros p; cbn.
  - intros [<-|[]]. reflexivity.
  - intros [<-|I]; [reflexivity|]. apply in_map_iff in I as (q & <- & I). cbn. f_equal. auto.
Qed.
Lemma perms_elt {A} (l p : list A) : In p (perms l) -> length p = length l.
Proof.
  revert p; induction l as [|a l IH]; intros p; cbn; [intros [<-|[]]; reflexivity|].
  intro I. apply in_flat_map in I as (q & I & J). rewrite (inserts_elt _ _ _ J). f_equal. auto.
Qed.
Lemma perms_In {A} (l : list A) : forall p, Permutation l p -> In p (perms l).
Proof.
  induction l as [|a l IH]; intros p P; cbn.
  - apply Permutation_nil in P as ->. now left.
  - destruct (in_split a p) as (p1 & p2 & ->). { eapply Permutation_in; eauto. now left. }
    apply Permutation_cons_app_inv in P. apply in_flat_map. exists (p1 ++ p2). split; auto. apply inserts_In.
Qed.
Lemma perms_length {A} (l : list A) : length (perms l) = fact (length l).
Proof.
  induction l as [|a l IH]; [reflexivity|]. cbn [perms length fact].
  assert (G : forall ps, (forall p, In p ps -> length p = length l) -> length (flat_map (inserts a) ps) = (S (length l) * length ps)%nat).
  { induction ps as [|p ps IHp]; intro H; cbn [flat_map length]; [lia|]. rewrite app_length, inserts_length, (H p) by now left.
    rewrite IHp by (intros; apply H; now right). lia. }
  rewrite G by apply perms_elt. rewrite IH. lia.
Qed.

(** The entropy is at least 0, at most log2 of the number of points and of d! for points with d
    coordinates, and 0 exactly if all points have the same order pattern. *)
Theorem permutation_entropy_bounds n_jobs X d V x h : comparison_argsort argsort -> 1 <= n_jobs -> (forall x, In x X -> x <> []) ->
  (forall x row, In x X -> In row x -> zlen row = d) ->
  permutation_entropy argsort n_jobs X = Ok V -> In (x, [XFin h]) (combine X V) ->
  (0 <= h /\ h <= log2 (IZR (zlen x)) /\ h <= log2 (INR (fact (Z.to_nat d))))%R /\
  (h = 0%R <-> forall u v, In u x -> In v x -> argsort u = argsort v).
Proof.
  intros [SO _] J N D E I.
  assert (NX : X <> []) by (intros ->; destruct I).
  destruct (permutation_entropy_spec n_jobs X J NX N) as (V' & E' & F). rewrite E in E'. injection E' as <-.
  apply In_Znth in I as (k & Bk & Hk). 
  assert (LXV : zlen X = zlen V) by exact (Forall2_zlen _ _ _ F).
  assert (Bk' : 0 <= k < zlen X) by (unfold zlen in *; rewrite combine_length in Bk; lia).
  destruct (Znth_ex X k) as [x' Ex]; [lia|]. destruct (Znth_ex V k) as [row Ev]; [lia|].
  rewrite (Znth_combine _ _ _ _ _ Ex Ev) in Hk. injection Hk as -> ->. destruct (Forall2_Znth _ _ _ _ _ _ F Ex Ev) as (h' & Eh & S). injection Eh as <-.
  set (pats := map fst (unique_counts (map argsort x))). pose proof (unique_keys (map argsort x)) as [ND IN]. fold pats in ND, IN.
  specialize (S pats (conj ND IN)). pose proof (Znth_In _ _ _ Ex) as Ix.
  assert (HP : positive (map (fun p => IZR (occurrences p (map argsort x))) pats)) by (apply occurrences_positive; apply IN).
  assert (NP : pats <> []).
  { intro Z0. specialize (N x Ix). destruct x as [|r x]; [easy|]. assert (In (argsort r) pats) as B by (apply IN; now left). rewrite Z0 in B. destruct B. }
  assert (NM : map (fun p => IZR (occurrences p (map argsort x))) pats <> []) by (intro Z0; now apply map_eq_nil in Z0).
  assert (LP : (1 <= length pats)%nat) by (destruct pats; [easy|cbn; lia]).
  assert (LE : (h <= log2 (IZR (zlen pats)))%R) by (rewrite S; erewrite <- (zlen_map _ pats); apply shannon_le; auto).
  assert (MO : forall m, (length pats <= m)%nat -> (log2 (IZR (zlen pats)) <= log2 (INR m))%R).
  { intros m L. unfold log2. apply Rmult_le_compat_r; [left; apply Rinv_0_lt_compat, ln2_pos|].
    assert (0 < INR (length pats))%R by (apply lt_0_INR; lia). unfold zlen. rewrite <- INR_IZR_INZ.
    destruct (Rle_lt_or_eq_dec _ _ (le_INR _ _ L)) as [L'|L']; [left; now apply ln_increasing|rewrite L'; apply Rle_refl]. }
  split; [split; [|split]|].
  - rewrite S. now apply shannon_nonneg.
  - eapply Rle_trans; [exact LE|]. unfold zlen at 2. rewrite <- INR_IZR_INZ. apply MO.
    transitivity (length (map argsort x)); [|rewrite map_length; lia]. apply NoDup_incl_length; auto. intros p. apply IN.
  - eapply Rle_trans; [exact LE|]. apply MO.
    transitivity (length (perms (arange d))).
    + apply NoDup_incl_length; auto. intros p Ip. apply IN in Ip. apply in_map_iff in Ip as (r & <- & Ir). apply perms_In, Permutation_sym.
      rewrite <- (D x r Ix Ir). apply SO.
    + rewrite perms_length. replace (length (arange d)) with (Z.to_nat d); [lia|].
      assert (D0 : 0 <= d).
      { clear - D Ix N. specialize (N x Ix). destruct x as [|r x]; [easy|]. rewrite <- (D _ r Ix (or_introl eq_refl)). apply zlen_nonneg. }
      pose proof (zlen_arange d D0) as LA. unfold zlen in LA. lia.
  - rewrite S. split.
    + intro Z0. destruct (Z.eq_dec (zlen pats) 1) as [L1|L1].
      * intros u v Iu Iv. destruct pats as [|p [|p' pats']] eqn:EP; [easy| |unfold zlen in L1; cbn [length] in L1; lia].
        assert (Iu' : In (argsort u) [p]) by (apply IN; now apply in_map). assert (Iv' : In (argsort v) [p]) by (apply IN; now apply in_map).
        destruct Iu' as [<-|[]]. destruct Iv' as [<-|[]]. reflexivity.
      * exfalso. apply (Rlt_irrefl 0). rewrite <- Z0 at 2. apply shannon_pos; auto. now rewrite zlen_map.
    + intro Q. apply shannon_one; auto. rewrite zlen_map. destruct pats as [|p [|p' pats']] eqn:EP; [easy|reflexivity|]. exfalso.
      assert (Ip : In p (map argsort x)) by (apply IN; now left). assert (Ip' : In p' (map argsort x)) by (apply IN; right; now left).
      apply in_map_iff in Ip as (u & <- & Iu). apply in_map_iff in Ip' as (v & <- & Iv). rewrite (Q u v Iu Iv) in ND. inversion ND as [|? ? N1 _]. apply N1. now left.
Qed.
End Permutation.

(** ** An argsort by comparisons: stable insertion. *)
Definition at_ (row : list R) (i : Z) : R := match Znth row i with Some a => a | None => 0%R end.
Fixpoint ins (row : list R) (i : Z) (l : list Z) : list Z :=
  match l with
  | [] => [i]
  | j :: t => if Rlt_dec (at_ row j) (at_ row i) then j :: ins row i t else i :: l
  end.
Definition stable_argsort (row : list R) : list Z := fold_right (ins row) [] (arange (zlen row)).
Lemma ins_perm row i l : Permutation (ins row i l) (i :: l).
Proof.
  induction l as [|j t IH]; cbn; auto. destruct (Rlt_dec _ _); auto. rewrite IH. apply perm_swap.
Qed.
Definition le_at row i j := (at_ row i <= at_ row j)%R.
Lemma ins_sorted row i l : StronglySorted (le_at row) l -> StronglySorted (le_at row) (ins row i l).
Proof.
  induction l as [|j t IH]; intro S; cbn; [repeat constructor|]. inversion S as [|? ? S1 F]; subst. destruct (Rlt_dec _ _) as [L|L].
  - constructor; auto. rewrite Forall_forall in *. intros k I. apply (Permutation_in _ (ins_perm row i t)) in I as [<-|I]; [unfold le_at; lra|auto].
  - constructor; auto. rewrite Forall_forall in *. unfold le_at in *. intros k [<-|I]; [lra|]. specialize (F k I). lra.
Qed.
Lemma fold_ins_perm row l : Permutation (fold_right (ins row) [] l) l.
Proof. induction l as [|i l IH]; cbn; auto. rewrite ins_perm. now constructor. Qed.
Lemma sorted_Znth {A} (Q : A -> A -> Prop) l p q a b : StronglySorted Q l -> p < q -> Znth l p = Some a -> Znth l q = Some b -> Q a b.
Proof.
  intro S. revert p q. induction S as [|x l S IH F]; intros p q L Hp Hq; [apply Znth_In in Hp; destruct Hp|].
  pose proof (Znth_Some_lt _ _ _ Hp). destruct (Z.eq_dec p 0) as [->|].
  - rewrite Znth_0 in Hp. injection Hp as ->. rewrite Znth_cons in Hq by lia. apply Znth_In in Hq. rewrite Forall_forall in F. auto.
  - rewrite Znth_cons in Hp by lia. rewrite Znth_cons in Hq by lia. apply (IH (p - 1) (q - 1)); auto. lia.
Qed.
Theorem stable_argsort_ok : comparison_argsort stable_argsort.
Proof.
  split.
  - intro row. split; [apply fold_ins_perm|]. intros p q i j a b L Hp Hq Ha Hb.
    assert (S : StronglySorted (le_at row) (stable_argsort row)).
    { unfold stable_argsort. induction (arange (zlen row)); cbn; [constructor|now apply ins_sorted]. }
    pose proof (sorted_Znth _ _ _ _ _ _ S L Hp Hq) as Q. unfold le_at, at_ in Q. now rewrite Ha, Hb in Q.
  - intros u v [L C]. unfold stable_argsort. rewrite L.
    assert (V : forall i, In i (arange (zlen v)) -> 0 <= i < zlen v) by (intros i I; now apply In_arange).
    revert V. generalize (arange (zlen v)). intros l V.
    assert (G : forall i l, 0 <= i < zlen v -> (forall j, In j l -> 0 <= j < zlen v) -> ins u i l = ins v i l).
    { clear l V. intros i l Bi. induction l as [|j t IH]; intro V; [reflexivity|]. cbn [ins].
      destruct (Znth_ex u i) as [a Ha]; [lia|]. destruct (Znth_ex v i) as [a' Ha']; [lia|].
      pose proof (V j (or_introl eq_refl)). destruct (Znth_ex u j) as [b Hb]; [lia|]. destruct (Znth_ex v j) as [b' Hb']; [lia|].
      unfold at_. rewrite Ha, Ha', Hb, Hb'. pose proof (C j i b a b' a' Hb Ha Hb' Ha').
      destruct (Rlt_dec b a), (Rlt_dec b' a'); try tauto. rewrite IH; auto. intros; apply V; now right. }
    assert (W : forall w l, (forall j, In j l -> 0 <= j < zlen v) -> forall j, In j (fold_right (ins w) [] l) -> 0 <= j < zlen v).
    { intros w l' V' j I. apply V'. eapply Permutation_in; [apply fold_ins_perm|exact I]. }
    induction l as [|i l IH]; [reflexivity|]. cbn [fold_right]. rewrite IH by (intros; apply V; now right).
    apply G; [apply V; now left|]. apply W. intros; apply V; now right.
Qed.
(** Two of three points go up, one goes down. *)
Example permutation_entropy_example : permutation_entropy stable_argsort 2 [[[1; 2]; [3; 5]; [4; 1]]]%R =
  Ok [[XFin (shannon [2; 1]%R)]].
Proof.
  assert (A0 : forall a b, stable_argsort [a; b] = if Rlt_dec b a then [1; 0] else [0; 1]) by reflexivity.
  assert (A1 : forall a b, (a < b)%R -> stable_argsort [a; b] = [0; 1]).
  { intros a b L. rewrite A0. destruct (Rlt_dec b a); [lra|reflexivity]. }
  assert (A2 : forall a b, (b < a)%R -> stable_argsort [a; b] = [1; 0]).
  { intros a b L. rewrite A0. destruct (Rlt_dec b a); [reflexivity|lra]. }
  unfold permutation_entropy, permutation_entropy_. rewrite parallel_ok by easy. cbn [map]. unfold permutation_entropy1. cbn [map]. rewrite !A1, A2 by lra.
  rewrite (entropy_2d_spec _ [[0; 1]; [1; 0]]); [|easy|].
  - reflexivity.
  - split; [repeat constructor; cbn; intuition congruence|]. cbn. intuition.
Qed.
Print Assumptions permutation_entropy_bounds.
