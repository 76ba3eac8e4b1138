(** Lemmas for the rescalings. *)
From Coq Require Import Reals Lra Permutation.
From Verif Require Import Np NpFacts RescaleModel RescaleSpec GraphThms.
Open Scope Z_scope.

Lemma how_many_perm {A} {P : A -> Prop} (dec : forall x, {P x} + {~ P x}) l l' :
  Permutation l l' -> how_many dec l = how_many dec l'.
Proof.
  unfold how_many, zlen. intro H. apply f_equal.
  induction H; cbn; auto.
  - destruct (dec x); cbn; congruence.
  - destruct (dec x), (dec y); cbn; congruence.
  - congruence.
Qed.
Lemma how_many_app {A} {P : A -> Prop} (dec : forall x, {P x} + {~ P x}) l l' :
  how_many dec (l ++ l') = how_many dec l + how_many dec l'.
Proof. unfold how_many. rewrite filter_app. apply zlen_app. Qed.
Lemma how_many_le {A} {P Q : A -> Prop} (dp : forall x, {P x} + {~ P x}) (dq : forall x, {Q x} + {~ Q x}) l :
  (forall x, In x l -> P x -> Q x) -> how_many dp l <= how_many dq l.
Proof.
  intro H. unfold how_many. induction l as [|x l IH]; cbn [filter]; [cbn; lia|].
  specialize (IH (fun y Hy => H y (or_intror Hy))).
  destruct (dp x) as [p|], (dq x) as [|q]; rewrite ?zlen_cons; try lia. destruct q. apply H; auto. now left.
Qed.
Lemma how_many_all {A} {P : A -> Prop} (dec : forall x, {P x} + {~ P x}) l :
  (forall x, In x l -> P x) -> how_many dec l = zlen l.
Proof.
  intro H. unfold how_many. induction l as [|x l IH]; cbn [filter]; auto.
  destruct (dec x) as [|n]; [|destruct n; apply H; now left]. rewrite !zlen_cons, IH; auto. intros; apply H; now right.
Qed.
Lemma how_many_none {A} {P : A -> Prop} (dec : forall x, {P x} + {~ P x}) l :
  (forall x, In x l -> ~ P x) -> how_many dec l = 0.
Proof.
  intro H. unfold how_many. induction l as [|x l IH]; cbn [filter]; auto.
  destruct (dec x) as [p|]; [destruct (H x (or_introl eq_refl) p)|]. apply IH. intros; apply H; now right.
Qed.
Lemma how_many_bounds {A} {P : A -> Prop} (dec : forall x, {P x} + {~ P x}) l : 0 <= how_many dec l <= zlen l.
Proof.
  unfold how_many. split; [apply zlen_nonneg|]. induction l as [|x l IH]; cbn [filter]; [lia|].
  destruct (dec x); rewrite ?zlen_cons; lia.
Qed.
Lemma how_many_iff {A B} {P : A -> Prop} {Q : B -> Prop} (dp : forall x, {P x} + {~ P x}) (dq : forall x, {Q x} + {~ Q x}) l (f : A -> B) :
  (forall x, In x l -> P x <-> Q (f x)) -> how_many dp l = how_many dq (map f l).
Proof.
  intro H. unfold how_many. induction l as [|x l IH]; cbn [filter map]; auto.
  specialize (IH (fun y Hy => H y (or_intror Hy))). specialize (H x (or_introl eq_refl)).
  destruct (dp x) as [p|p], (dq (f x)) as [q|q]; rewrite ?zlen_cons; try lia; tauto.
Qed.

Lemma kth_unique k row v w : kth_smallest k row v -> kth_smallest k row w -> v = w.
Proof.
  assert (T : forall v w, (v < w)%R -> kth_smallest k row v -> kth_smallest k row w -> False).
  { intros a b L [_ H] [K _].
    pose proof (how_many_le (fun x => Rle_dec x a) (fun x => Rlt_dec x b) row ltac:(intros; lra)). lia. }
  intros H K. destruct (Rtotal_order v w) as [L|[E|L]]; auto; [destruct (T v w)|destruct (T w v)]; auto.
Qed.
Lemma kth_perm k row row' v : Permutation row row' -> kth_smallest k row v -> kth_smallest k row' v.
Proof. intro H. unfold kth_smallest. now rewrite !(how_many_perm _ _ _ H). Qed.
Lemma kth_scale k row v c : (0 < c)%R -> kth_smallest k row v -> kth_smallest k (map (Rmult c) row) (c * v)%R.
Proof.
  intros C [H K]. unfold kth_smallest.
  rewrite <- (how_many_iff (fun x => Rlt_dec x v)), <- (how_many_iff (fun x => Rle_dec x v)); auto.
  - intros x _. split; intro L; [now apply Rmult_le_compat_l; [lra|]|]. now apply Rmult_le_reg_l in L.
  - intros x _. split; intro L; [now apply Rmult_lt_compat_l|]. now apply Rmult_lt_reg_l in L.
Qed.
Lemma kth_In k row v : kth_smallest k row v -> In v row.
Proof.
  intros [H K]. destruct (in_dec Req_EM_T v row) as [|N]; auto.
  pose proof (how_many_le (fun x => Rle_dec x v) (fun x => Rlt_dec x v) row) as L.
  assert (how_many (fun x => Rle_dec x v) row <= how_many (fun x => Rlt_dec x v) row); [|lia].
  apply L. intros x Hx P. destruct P; auto. subst; now destruct N.
Qed.

Lemma map_Znth_arange {A} (d : A) (l : list A) :
  map (fun i => match Znth l i with Some x => x | None => d end) (arange (zlen l)) = l.
Proof. rewrite <- tabZ_arange. apply tabZ_Znth_id. Qed.

Lemma sorts_kth row idx k i v : sorts row idx -> 0 <= k -> Znth idx k = Some i -> Znth row i = Some v ->
  kth_smallest k row v.
Proof.
  intros [P S] Hk Hi Hv.
  set (f := fun i => match Znth row i with Some x => x | None => 0%R end).
  assert (PV : Permutation (map f idx) row).
  { transitivity (map f (arange (zlen row))); [now apply Permutation_map|]. unfold f. now rewrite map_Znth_arange. }
  apply (kth_perm k (map f idx)); auto.
  assert (InV : forall p j, Znth idx p = Some j -> exists x, Znth row j = Some x /\ f j = x).
  { intros p j Hp. assert (In j (arange (zlen row))) by (eapply Permutation_in; [exact P|eapply Znth_In; eauto]).
    apply In_arange in H. destruct (Znth_ex row j) as [x Hx]; [lia|]. exists x. split; auto. unfold f. now rewrite Hx. }
  assert (Lk := Znth_Some_lt _ _ _ Hi).
  rewrite <- (firstn_skipn (Z.to_nat k) idx) in *.
  set (a := firstn (Z.to_nat k) idx) in *. set (b := skipn (Z.to_nat k) idx) in *.
  assert (La : zlen a = k). { unfold a, zlen in *. rewrite firstn_length. rewrite app_length in Lk. unfold a, b in Lk.
    rewrite <- app_length, firstn_skipn in Lk. lia. }
  assert (Ha : forall x, In x (map f a) -> (x <= v)%R).
  { intros x Hx. apply in_map_iff in Hx as (j & <- & Hj). apply In_Znth in Hj as (p & Bp & Hp).
    assert (Hp' : Znth (a ++ b) p = Some j) by (rewrite Znth_app1; auto; lia).
    destruct (InV p j Hp') as (x & Hx & ->). apply (S p k j i x v); auto. lia. }
  assert (Hb : forall x, In x (map f b) -> (v <= x)%R).
  { intros x Hx. apply in_map_iff in Hx as (j & <- & Hj). apply In_Znth in Hj as (p & Bp & Hp).
    assert (Hp' : Znth (a ++ b) (k + p) = Some j) by (rewrite Znth_app2 by lia; rewrite <- Hp; f_equal; lia).
    destruct (InV (k + p) j Hp') as (x & Hx & ->). destruct (Z.eq_dec p 0) as [->|D].
    - rewrite Z.add_0_r in Hp'. rewrite Hi in Hp'. injection Hp' as <-. rewrite Hv in Hx. injection Hx as <-. lra.
    - apply (S k (k + p) i j v x); auto. lia. }
  assert (Hvb : exists b', b = i :: b').
  { destruct b as [|j b']; [rewrite app_nil_r in *; lia|]. exists b'. f_equal.
    rewrite Znth_app2 in Hi by lia. rewrite La, Z.sub_diag, Znth_0 in Hi. congruence. }
  destruct Hvb as [b' Eb].
  assert (Fi : f i = v) by (unfold f; now rewrite Hv).
  unfold kth_smallest. rewrite map_app, !how_many_app.
  rewrite (how_many_none _ (map f b)) by (intros x Hx; apply Hb in Hx; lra).
  rewrite (how_many_all (fun x => Rle_dec x v) (map f a)) by auto.
  pose proof (how_many_bounds (fun x => Rlt_dec x v) (map f a)). rewrite zlen_map in *.
  split; [lia|]. rewrite Eb. cbn [map]. unfold how_many. cbn [filter]. rewrite Fi.
  destruct (Rle_dec v v); [|lra]. rewrite zlen_cons. pose proof (zlen_nonneg (filter (fun x => if Rle_dec x v then true else false) (map f b'))). lia.
Qed.

(** Writing in matrices *)
Lemma entry_set2 {A} (M : list (list A)) i j v a b :
  entry (set2 M i j v) a b =
  if (a =? i) && (b =? j) then (match entry M a b with Some _ => Some v | None => None end) else entry M a b.
Proof.
  unfold entry, set2. rewrite Znth_mapi. destruct (Znth M a) as [r|]; cbn [option_map].
  - destruct (Z.eqb_spec a i); cbn [andb]; auto. rewrite Znth_set_at.
    destruct (b =? j); destruct (Znth r b); auto.
  - now destruct ((a =? i) && (b =? j)).
Qed.
Lemma square_set2 {A} (M : list (list A)) i j v n : square M n -> square (set2 M i j v) n.
Proof.
  intros [H1 H2]. unfold set2. split; [now rewrite zlen_mapi|]. intros r Hr.
  apply In_Znth in Hr as (k & _ & Hk). rewrite Znth_mapi in Hk. destruct (Znth M k) as [r'|] eqn:E; [|easy].
  injection Hk as <-. apply Znth_In in E. destruct (k =? i); rewrite ?zlen_set_at; auto.
Qed.
Definition pair_dec : forall p q : Z * Z, {p = q} + {p <> q}.
Proof. decide equality; apply Z.eq_dec. Defined.
Lemma fold_set2 {A} (l : list (Z * Z)) (f : Z -> Z -> A) : forall M n, square M n ->
  let M' := fold_left (fun M ij => let '(i, j) := ij in set2 M i j (f i j)) l M in
  square M' n /\ forall a b, 0 <= a < n -> 0 <= b < n ->
    (In (a, b) l -> entry M' a b = Some (f a b)) /\ (~ In (a, b) l -> entry M' a b = entry M a b).
Proof.
  induction l as [|[i j] l IH]; intros M n Q; cbn [fold_left].
  - split; auto. intros a b _ _. split; [easy|auto].
  - destruct (IH (set2 M i j (f i j)) n (square_set2 _ _ _ _ _ Q)) as [Q' E']. split; auto.
    intros a b Ha Hb. destruct (E' a b Ha Hb) as [E1 E2]. split.
    + intros H. destruct (in_dec pair_dec (a, b) l) as [I|I]; auto.
      rewrite E2 by auto. rewrite entry_set2. destruct H as [H|H]; [|easy]. injection H as -> ->.
      rewrite !Z.eqb_refl. cbn [andb]. destruct (entry M a b) eqn:E; auto. exfalso.
      destruct Q as [Q1 Q2]. unfold entry in E. destruct (Znth_ex M a) as [r Hr]; [lia|]. rewrite Hr in E.
      pose proof (Q2 _ (Znth_In _ _ _ Hr)). destruct (Znth_ex r b) as [? ?]; [lia|congruence].
    + intros H. rewrite E2 by (intro; apply H; now right). rewrite entry_set2.
      destruct (Z.eqb_spec a i); cbn [andb]; auto. destruct (Z.eqb_spec b j); auto. subst. destruct H. now left.
Qed.
Lemma In_combinations2 n i j : In (i, j) (combinations2 n) <-> 0 <= i /\ i < j < n.
Proof.
  unfold combinations2. rewrite in_flat_map. split.
  - intros (k & Hk & H). apply in_map_iff in H as (p & E & Hp). injection E as -> <-.
    apply In_arange in Hk, Hp. lia.
  - intros H. exists i. split; [apply In_arange; lia|]. apply in_map_iff. exists (j - i - 1).
    split; [f_equal; lia|]. apply In_arange. lia.
Qed.
Lemma get2_entry {A} (d : A) M i j x : entry M i j = Some x -> get2 d M i j = x.
Proof. unfold entry, get2. destruct (Znth M i); [|easy]. intros ->. reflexivity. Qed.
Lemma square_entry {A} (M : list (list A)) n i j : square M n -> 0 <= i < n -> 0 <= j < n -> exists x, entry M i j = Some x.
Proof.
  intros [H1 H2] Hi Hj. unfold entry. destruct (Znth_ex M i) as [r Hr]; [lia|]. rewrite Hr.
  apply Znth_ex. now rewrite (H2 _ (Znth_In _ _ _ Hr)).
Qed.
