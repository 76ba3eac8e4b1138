(** Lemmas on the primitives of [Np]. *)
From Verif Require Import Np.
From Coq Require Import Permutation.
Ltac Zify.zify_post_hook ::= Z.div_mod_to_equations.

Lemma zlen_nonneg {A} (l : list A) : 0 <= zlen l.
Proof. unfold zlen; lia. Qed.
Lemma zlen_nil {A} : zlen (@nil A) = 0. Proof. reflexivity. Qed.
Lemma zlen_cons {A} (x : A) l : zlen (x :: l) = zlen l + 1.
Proof. unfold zlen; simpl length; lia. Qed.
Lemma zlen_app {A} (l l' : list A) : zlen (l ++ l') = zlen l + zlen l'.
Proof. unfold zlen; rewrite app_length; lia. Qed.
Lemma zlen_map {A B} (f : A -> B) l : zlen (map f l) = zlen l.
Proof. unfold zlen; now rewrite map_length. Qed.
Lemma zlen_rev {A} (l : list A) : zlen (rev l) = zlen l.
Proof. unfold zlen; now rewrite rev_length. Qed.

Lemma Znth_None {A} (l : list A) i : i < 0 \/ zlen l <= i -> Znth l i = None.
Proof.
  unfold Znth, zlen; intros H. destruct (Z.ltb_spec i 0); [reflexivity|].
  apply nth_error_None; lia.
Qed.
Lemma Znth_Some_lt {A} (l : list A) i x : Znth l i = Some x -> 0 <= i < zlen l.
Proof.
  intros H. destruct (Z_lt_dec i 0); [rewrite Znth_None in H by lia; discriminate|].
  destruct (Z_le_dec (zlen l) i); [rewrite Znth_None in H by lia; discriminate|]. lia.
Qed.
Lemma Znth_ex {A} (l : list A) i : 0 <= i < zlen l -> exists x, Znth l i = Some x.
Proof.
  unfold Znth, zlen; intros H. destruct (Z.ltb_spec i 0); [lia|].
  destruct (nth_error l (Z.to_nat i)) eqn:E; [eauto|].
  apply nth_error_None in E; lia.
Qed.
Lemma Znth_map {A B} (f : A -> B) l i : Znth (map f l) i = option_map f (Znth l i).
Proof.
  unfold Znth. destruct (i <? 0); [reflexivity|].
  destruct (nth_error l (Z.to_nat i)) eqn:E; simpl.
  - now apply map_nth_error.
  - apply nth_error_None. rewrite map_length. now apply nth_error_None.
Qed.
Lemma Znth_app1 {A} (l l' : list A) i : i < zlen l -> Znth (l ++ l') i = Znth l i.
Proof.
  unfold Znth, zlen; intros H. destruct (Z.ltb_spec i 0); [reflexivity|].
  apply nth_error_app1; lia.
Qed.
Lemma Znth_app2 {A} (l l' : list A) i :
  zlen l <= i -> Znth (l ++ l') i = Znth l' (i - zlen l).
Proof.
  unfold Znth, zlen; intros H. destruct (Z.ltb_spec i 0); [lia|].
  destruct (Z.ltb_spec (i - Z.of_nat (length l)) 0); [lia|].
  rewrite nth_error_app2 by lia. f_equal; lia.
Qed.
Lemma Znth_0 {A} (x : A) l : Znth (x :: l) 0 = Some x.
Proof. reflexivity. Qed.
Lemma Znth_cons {A} (x : A) l i : 0 < i -> Znth (x :: l) i = Znth l (i - 1).
Proof.
  intros H. change (x :: l) with ([x] ++ l). rewrite Znth_app2; [|unfold zlen; simpl; lia].
  unfold zlen; simpl. reflexivity.
Qed.
Lemma Znth_In {A} (l : list A) i x : Znth l i = Some x -> In x l.
Proof.
  unfold Znth. destruct (i <? 0); [discriminate|]. apply nth_error_In.
Qed.
Lemma In_Znth {A} (l : list A) x : In x l -> exists i, 0 <= i < zlen l /\ Znth l i = Some x.
Proof.
  intros H. apply In_nth_error in H. destruct H as [n Hn].
  exists (Z.of_nat n). assert (Znth l (Z.of_nat n) = Some x).
  { unfold Znth. destruct (Z.ltb_spec (Z.of_nat n) 0); [lia|]. now rewrite Nat2Z.id. }
  split; [now apply Znth_Some_lt in H|assumption].
Qed.
Lemma nth_error_ext {A} (l l' : list A) :
  (forall n, nth_error l n = nth_error l' n) -> l = l'.
Proof.
  revert l'; induction l as [|x l IH]; destruct l' as [|y l']; intros H.
  - reflexivity.
  - specialize (H O); discriminate.
  - specialize (H O); discriminate.
  - f_equal.
    + specialize (H O); simpl in H; congruence.
    + apply IH; intros n; exact (H (S n)).
Qed.
Lemma Znth_ext {A} (l l' : list A) :
  zlen l = zlen l' -> (forall i, 0 <= i < zlen l -> Znth l i = Znth l' i) -> l = l'.
Proof.
  intros Hl H. apply nth_error_ext; intros n.
  destruct (Nat.lt_ge_cases n (length l)) as [Hn|Hn].
  - specialize (H (Z.of_nat n)). unfold Znth, zlen in *.
    destruct (Z.ltb_spec (Z.of_nat n) 0); [lia|].
    rewrite Nat2Z.id in H. apply H; lia.
  - unfold zlen in Hl. rewrite (proj2 (nth_error_None l n)) by lia.
    symmetry; apply nth_error_None; lia.
Qed.
Lemma Znth_rev {A} (l : list A) i :
  0 <= i < zlen l -> Znth (rev l) i = Znth l (zlen l - 1 - i).
Proof.
  revert i; induction l as [|x l IH]; intros i Hi; [unfold zlen in Hi; simpl in Hi; lia|].
  simpl rev. rewrite zlen_cons in *.
  destruct (Z.eq_dec i (zlen l)).
  - subst. rewrite Znth_app2 by (rewrite zlen_rev; lia). rewrite zlen_rev.
    replace (zlen l - zlen l) with 0 by lia.
    replace (zlen l + 1 - 1 - zlen l) with 0 by lia. reflexivity.
  - rewrite Znth_app1 by (rewrite zlen_rev; lia). rewrite IH by lia.
    rewrite Znth_cons by lia. f_equal; lia.
Qed.

Lemma zlen_tabZ {A} n (f : Z -> A) : 0 <= n -> zlen (tabZ n f) = n.
Proof. intros; unfold zlen, tabZ; rewrite map_length, seq_length; lia. Qed.
Lemma zlen_tabZ_max {A} n (f : Z -> A) : zlen (tabZ n f) = Z.max 0 n.
Proof. intros; unfold zlen, tabZ; rewrite map_length, seq_length; lia. Qed.
Lemma Znth_tabZ {A} n (f : Z -> A) i : 0 <= i < n -> Znth (tabZ n f) i = Some (f i).
Proof.
  intros H. unfold tabZ. rewrite Znth_map.
  unfold Znth. destruct (Z.ltb_spec i 0); [lia|].
  erewrite nth_error_nth' with (d := O) by (rewrite seq_length; lia).
  simpl. rewrite seq_nth by lia. simpl. f_equal. f_equal. lia.
Qed.
Lemma zlen_arange n : 0 <= n -> zlen (arange n) = n.
Proof. apply zlen_tabZ. Qed.
Lemma Znth_arange n i : 0 <= i < n -> Znth (arange n) i = Some i.
Proof. intros; unfold arange; now rewrite Znth_tabZ. Qed.
Lemma In_arange n i : In i (arange n) <-> 0 <= i < n.
Proof.
  unfold arange, tabZ. rewrite in_map_iff. split.
  - intros [k [<- Hk]]. apply in_seq in Hk. lia.
  - intros H. exists (Z.to_nat i). split; [lia|]. apply in_seq. lia.
Qed.
Lemma NoDup_arange n : NoDup (arange n).
Proof.
  unfold arange, tabZ. apply FinFun.Injective_map_NoDup; [|apply seq_NoDup].
  intros a b; lia.
Qed.
Lemma tabZ_map {A B} (g : A -> B) n f : map g (tabZ n f) = tabZ n (fun i => g (f i)).
Proof. unfold tabZ; rewrite map_map; reflexivity. Qed.
Lemma tabZ_arange {A} n (f : Z -> A) : tabZ n f = map f (arange n).
Proof. unfold arange, tabZ. now rewrite map_map. Qed.
Lemma tabZ_ext {A} n (f g : Z -> A) :
  (forall i, 0 <= i < n -> f i = g i) -> tabZ n f = tabZ n g.
Proof.
  intros H. rewrite !tabZ_arange. apply map_ext_in. intros a Ha.
  apply In_arange in Ha. auto.
Qed.
Lemma In_tabZ {A} n (f : Z -> A) y : In y (tabZ n f) <-> exists i, 0 <= i < n /\ f i = y.
Proof.
  rewrite tabZ_arange, in_map_iff. split.
  - intros [i [<- Hi]]. apply In_arange in Hi. eauto.
  - intros [i [Hi <-]]. exists i. split; [reflexivity|]. now apply In_arange.
Qed.
Lemma tabZ_S {A} n (f : Z -> A) : 0 <= n -> tabZ (n + 1) f = tabZ n f ++ [f n].
Proof.
  intros H. unfold tabZ. replace (Z.to_nat (n + 1)) with (S (Z.to_nat n)) by lia.
  rewrite seq_S, map_app. simpl. do 3 f_equal. lia.
Qed.
Lemma tabZ_S_front {A} n (f : Z -> A) :
  0 <= n -> tabZ (n + 1) f = f 0 :: tabZ n (fun i => f (i + 1)).
Proof.
  intros H. unfold tabZ. replace (Z.to_nat (n + 1)) with (S (Z.to_nat n)) by lia.
  simpl. f_equal. rewrite <- seq_shift, map_map. apply map_ext. intros. f_equal. lia.
Qed.
Lemma tabZ_nil {A} n (f : Z -> A) : n <= 0 -> tabZ n f = [].
Proof. intros H. unfold tabZ. now replace (Z.to_nat n) with O by lia. Qed.
Lemma tabZ_Znth_id {A} (l : list A) (d : A) :
  tabZ (zlen l) (fun i => match Znth l i with Some x => x | None => d end) = l.
Proof.
  apply Znth_ext; rewrite zlen_tabZ by apply zlen_nonneg; [reflexivity|].
  intros i Hi. rewrite Znth_tabZ by lia.
  destruct (Znth_ex l i Hi) as [x ->]. reflexivity.
Qed.

Lemma py_get_in {A} (l : list A) i x : 0 <= i -> Znth l i = Some x -> py_get l i = Ok x.
Proof.
  intros H0 H. unfold py_get. destruct (Z.ltb_spec i 0); [lia|]. now rewrite H.
Qed.

Lemma mapM_Ok {A B} (f : A -> res B) (g : A -> B) l :
  (forall x, In x l -> f x = Ok (g x)) -> mapM f l = Ok (map g l).
Proof.
  induction l as [|x l IH]; simpl; intros H; [reflexivity|].
  rewrite H by auto. simpl. rewrite IH by auto. reflexivity.
Qed.
Lemma mapM_ext {A B} (f g : A -> res B) l :
  (forall x, In x l -> f x = g x) -> mapM f l = mapM g l.
Proof.
  induction l as [|x l IH]; simpl; intros H; [reflexivity|].
  rewrite H by auto. rewrite IH by auto. reflexivity.
Qed.
Lemma mapM_Ok_inv {A B} (f : A -> res B) l r :
  mapM f l = Ok r -> Forall2 (fun x y => f x = Ok y) l r.
Proof.
  revert r; induction l as [|x l IH]; simpl; intros r H.
  - injection H as <-. constructor.
  - destruct (f x) eqn:E; simpl in H; [|discriminate].
    destruct (mapM f l); simpl in H; [|discriminate]. injection H as <-.
    constructor; auto.
Qed.
Lemma mapM_Forall2 {A B} (f : A -> res B) l r :
  Forall2 (fun x y => f x = Ok y) l r -> mapM f l = Ok r.
Proof.
  induction 1 as [|x y l r Hxy _ IH]; simpl; [reflexivity|].
  rewrite Hxy. simpl. rewrite IH. reflexivity.
Qed.
Lemma mapM_app {A B} (f : A -> res B) l l' :
  mapM f (l ++ l') = do a <- mapM f l; do b <- mapM f l'; Ok (a ++ b).
Proof.
  induction l as [|x l IH]; simpl.
  - destruct (mapM f l'); reflexivity.
  - destruct (f x); simpl; [|reflexivity]. rewrite IH.
    destruct (mapM f l); simpl; [|reflexivity].
    destruct (mapM f l'); reflexivity.
Qed.
Lemma mapM_map {A B C} (f : B -> res C) (g : A -> B) l :
  mapM f (map g l) = mapM (fun x => f (g x)) l.
Proof. induction l as [|x l IH]; simpl; [reflexivity|]. now rewrite IH. Qed.

(** Gathering with in-range indices. *)
Lemma gather_tabZ {A} (l : list A) n (f : Z -> Z) :
  (forall i, 0 <= i < n -> 0 <= f i < zlen l) ->
  exists r, gather l (tabZ n f) = Ok r /\ zlen r = Z.max 0 n /\
            forall i, 0 <= i < n -> Znth r i = Znth l (f i).
Proof.
  intros H. destruct l as [|d l0] eqn:El.
  - destruct (Z_le_dec n 0) as [Hn|Hn].
    + rewrite tabZ_nil by lia. exists []. split; [reflexivity|split; [unfold zlen; simpl; lia|lia]].
    + specialize (H 0). unfold zlen in H; simpl in H. lia.
  - rewrite <- El in *. clear El.
    exists (tabZ n (fun i => match Znth l (f i) with Some x => x | None => d end)).
    split; [|split].
    + unfold gather. rewrite tabZ_arange, mapM_map, tabZ_arange.
      apply mapM_Ok. intros i Hi. apply In_arange in Hi. specialize (H i Hi).
      destruct (Znth_ex l (f i) H) as [y Hy]. rewrite Hy. apply py_get_in; [lia|assumption].
    + apply zlen_tabZ_max.
    + intros i Hi. rewrite Znth_tabZ by lia. specialize (H i Hi).
      destruct (Znth_ex l (f i) H) as [y Hy]. now rewrite Hy.
Qed.

(** Slices. *)
Lemma flat_map_Znth_ok {A} (l : list A) (f : Z -> Z) n :
  (forall k, 0 <= k < n -> 0 <= f k < zlen l) -> 0 <= n ->
  let r := flat_map (fun k => match Znth l (f k) with Some x => [x] | None => [] end) (arange n) in
  zlen r = n /\ forall i, 0 <= i < n -> Znth r i = Znth l (f i).
Proof.
  intros H Hn r.
  destruct (gather_tabZ l n f H) as [g [_ [Hl Hg]]].
  assert (E : r = g).
  { subst r. rewrite Z.max_r in Hl by lia. clear - H Hn Hl Hg.
    assert (Eg : g = flat_map (fun k => match Znth g k with Some x => [x] | None => [] end) (arange n)).
    { clear - Hl. subst n.
      assert (G : forall m, 0 <= m <= zlen g ->
        flat_map (fun k => match Znth g k with Some x => [x] | None => [] end) (arange m) = firstn (Z.to_nat m) g).
      { intros m Hm. remember (Z.to_nat m) as k eqn:Ek. revert m Hm Ek.
        induction k as [|k IH]; intros m Hm Ek.
        - assert (m = 0) by lia. subst. reflexivity.
        - replace m with (Z.of_nat k + 1) by lia. unfold arange. rewrite tabZ_S by lia.
          rewrite flat_map_app. fold (arange (Z.of_nat k)).
          rewrite (IH (Z.of_nat k)) by lia. simpl. rewrite app_nil_r.
          destruct (Znth_ex g (Z.of_nat k)) as [x Hx]; [lia|]. rewrite Hx.
          unfold Znth in Hx. destruct (Z.of_nat k <? 0); [discriminate|].
          rewrite Nat2Z.id in Hx.
          clear - Hx. revert g Hx. induction k as [|k IHk]; intros [|y g] Hx; simpl in *; try discriminate.
          + now injection Hx as ->.
          + f_equal. now apply IHk. }
      rewrite G by (pose proof (zlen_nonneg g); lia). unfold zlen. rewrite Nat2Z.id. now rewrite firstn_all. }
    rewrite Eg at 1. clear Eg.
    assert (F : forall ks, (forall k, In k ks -> 0 <= k < n) ->
       flat_map (fun k => match Znth l (f k) with Some x => [x] | None => [] end) ks
       = flat_map (fun k => match Znth g k with Some x => [x] | None => [] end) ks).
    { induction ks as [|k ks IH]; simpl; intros Hk; [reflexivity|].
      rewrite Hg by auto. rewrite IH by auto. reflexivity. }
    apply F. intros k Hk. now apply In_arange in Hk. }
  rewrite E. split; [lia|exact Hg].
Qed.

(** Forward slice [l[a:b]] with in-range bounds. *)
Lemma py_slice_spec {A} (l : list A) start stop step :
  step <> 0 ->
  let n := zlen l in
  let lo := slice_start step n start in
  let hi := slice_stop step n stop in
  let c := slice_count step lo hi in
  0 <= c /\ zlen (py_slice start stop step l) = c /\
  forall i, 0 <= i < c -> Znth (py_slice start stop step l) i = Znth l (lo + i * step).
Proof.
  intros Hs n lo hi c.
  assert (Hn : 0 <= n) by apply zlen_nonneg.
  assert (Hlo : (0 < step -> 0 <= lo <= n) /\ (step < 0 -> -1 <= lo <= n - 1)).
  { subst lo. unfold slice_start, clip_index.
    destruct start as [s|]; destruct (Z.ltb_spec step 0);
      try destruct (Z.ltb_spec s 0); lia. }
  assert (Hhi : (0 < step -> 0 <= hi <= n) /\ (step < 0 -> -1 <= hi <= n - 1)).
  { subst hi. unfold slice_stop, clip_index.
    destruct stop as [s|]; destruct (Z.ltb_spec step 0);
      try destruct (Z.ltb_spec s 0); lia. }
  assert (Hc : 0 <= c).
  { subst c. unfold slice_count. destruct (Z.ltb_spec step 0);
    [destruct (Z.ltb_spec hi lo)|destruct (Z.ltb_spec lo hi)]; try lia.
    - pose proof (Z.div_pos (lo - hi - 1) (- step)). lia.
    - pose proof (Z.div_pos (hi - lo - 1) step). lia. }
  split; [exact Hc|].
  apply (flat_map_Znth_ok l (fun k => lo + k * step) c); [|exact Hc].
  intros k Hk. subst c. unfold slice_count in Hk.
  destruct (Z.ltb_spec step 0).
  - destruct (Z.ltb_spec hi lo); [|lia].
    assert ((- step) * ((lo - hi - 1) / (- step)) <= lo - hi - 1) by (apply Z.mul_div_le; lia).
    destruct Hlo as [_ Hlo]. destruct Hhi as [_ Hhi]. specialize (Hlo ltac:(lia)). specialize (Hhi ltac:(lia)).
    assert ((- step) * k <= (- step) * ((lo - hi - 1) / (- step))) by (apply Z.mul_le_mono_nonneg_l; lia).
    fold n. nia.
  - destruct (Z.ltb_spec lo hi); [|lia].
    assert (step * ((hi - lo - 1) / step) <= hi - lo - 1) by (apply Z.mul_div_le; lia).
    destruct Hlo as [Hlo _]. destruct Hhi as [Hhi _]. specialize (Hlo ltac:(lia)). specialize (Hhi ltac:(lia)).
    assert (step * k <= step * ((hi - lo - 1) / step)) by (apply Z.mul_le_mono_nonneg_l; lia).
    fold n. nia.
Qed.

Lemma py_sub_spec {A} (l : list A) a b :
  0 <= a <= b -> b <= zlen l ->
  zlen (py_sub (Some a) (Some b) l) = b - a /\
  forall i, 0 <= i < b - a -> Znth (py_sub (Some a) (Some b) l) i = Znth l (a + i).
Proof.
  intros Hab Hb.
  assert (E1 : slice_start 1 (zlen l) (Some a) = a).
  { unfold slice_start, clip_index. destruct (Z.ltb_spec a 0); simpl; lia. }
  assert (E2 : slice_stop 1 (zlen l) (Some b) = b).
  { unfold slice_stop, clip_index. destruct (Z.ltb_spec b 0); simpl; lia. }
  assert (E3 : slice_count 1 a b = b - a).
  { unfold slice_count. simpl. destruct (Z.ltb_spec a b); [rewrite Z.div_1_r|]; lia. }
  destruct (py_slice_spec l (Some a) (Some b) 1 ltac:(lia)) as [_ [H1 H2]].
  cbv zeta in H1, H2. rewrite E1, E2, E3 in *.
  unfold py_sub. split; [assumption|]. intros i Hi. rewrite H2 by lia. f_equal; lia.
Qed.

Lemma Forall2_length {A B} (R : A -> B -> Prop) l l' : Forall2 R l l' -> length l = length l'.
Proof. induction 1; simpl; congruence. Qed.
Lemma Forall2_zlen {A B} (R : A -> B -> Prop) l l' : Forall2 R l l' -> zlen l = zlen l'.
Proof. intros H. unfold zlen. f_equal. eapply Forall2_length; eauto. Qed.
Lemma Forall2_Znth {A B} (R : A -> B -> Prop) l l' i a b :
  Forall2 R l l' -> Znth l i = Some a -> Znth l' i = Some b -> R a b.
Proof.
  intros HF. unfold Znth. destruct (i <? 0); [discriminate|]. generalize (Z.to_nat i).
  induction HF as [|x y l l' Hxy _ IH]; intros [|k] Ha Hb; simpl in *; try discriminate.
  - congruence.
  - eauto.
Qed.

Lemma zlen_concat_uniform {A} (L : list (list A)) d :
  (forall r, In r L -> zlen r = d) -> zlen (concat L) = zlen L * d.
Proof.
  induction L as [|r L IH]; intros H; [reflexivity|].
  cbn [concat]. rewrite zlen_app, zlen_cons, IH by (intros; apply H; simpl; auto).
  rewrite (H r) by (simpl; auto). lia.
Qed.
Lemma Znth_concat_uniform {A} (L : list (list A)) d c j r :
  (forall r, In r L -> zlen r = d) -> Znth L c = Some r -> 0 <= j < d ->
  Znth (concat L) (c * d + j) = Znth r j.
Proof.
  revert c; induction L as [|r0 L IH]; intros c H Hc Hj.
  - apply Znth_Some_lt in Hc. unfold zlen in Hc; simpl in Hc; lia.
  - assert (H0 : zlen r0 = d) by (apply H; simpl; auto).
    assert (Hl := Znth_Some_lt _ _ _ Hc). cbn [concat]. destruct (Z.eq_dec c 0) as [->|Hc0].
    + injection Hc as ->. rewrite Znth_app1 by lia. f_equal; lia.
    + rewrite Znth_cons in Hc by lia. rewrite Znth_app2 by nia.
      replace (c * d + j - zlen r0) with ((c - 1) * d + j) by lia.
      apply IH; auto. intros; apply H; simpl; auto.
Qed.
Lemma mapM_arange_ok {A} n (f : Z -> res A) (R : Z -> A -> Prop) :
  0 <= n -> (forall i, 0 <= i < n -> exists a, f i = Ok a /\ R i a) ->
  exists r, mapM f (arange n) = Ok r /\ zlen r = n /\
    forall i, 0 <= i < n -> exists a, Znth r i = Some a /\ R i a.
Proof.
  intros Hn H.
  assert (G : forall ws, (forall w, In w ws -> 0 <= w < n) ->
     exists W, mapM f ws = Ok W /\ Forall2 R ws W).
  { induction ws as [|w ws IH]; intros Hw.
    - exists []. split; [reflexivity|constructor].
    - destruct (H w) as [a [Ha HR]]. { apply Hw; simpl; auto. }
      destruct IH as [W [HW HF]]. { intros; apply Hw; simpl; auto. }
      exists (a :: W). simpl. rewrite Ha. simpl. rewrite HW. simpl. split; [reflexivity|].
      constructor; auto. }
  destruct (G (arange n)) as [W [HW HF]]. { intros w Hw. now apply In_arange in Hw. }
  exists W. split; [exact HW|].
  assert (HL : zlen W = n).
  { apply Forall2_zlen in HF. rewrite <- HF. now apply zlen_arange. }
  split; [exact HL|]. intros i Hi. destruct (Znth_ex W i ltac:(lia)) as [a Ha]. exists a. split; [exact Ha|].
  eapply Forall2_Znth; eauto. apply Znth_arange; lia.
Qed.
Lemma mapM_list_ok {A B} (l : list A) (f : A -> res B) (R : A -> B -> Prop) :
  (forall x, In x l -> exists a, f x = Ok a /\ R x a) ->
  exists r, mapM f l = Ok r /\ Forall2 R l r.
Proof.
  induction l as [|w ws IH]; intros Hw.
  - exists []. split; [reflexivity|constructor].
  - destruct (Hw w) as [a [Ha HR]]. { simpl; auto. }
    destruct IH as [W [HW HF]]. { intros; apply Hw; simpl; auto. }
    exists (a :: W). simpl. rewrite Ha. simpl. rewrite HW. simpl. split; [reflexivity|].
    constructor; auto.
Qed.

(** *** mapi, set_at, upd_range *)
Lemma zlen_mapi_from {A B} (f : Z -> A -> B) l i : zlen (mapi_from i f l) = zlen l.
Proof. revert i; induction l as [|x l IH]; intros i; [reflexivity|]. cbn [mapi_from]. now rewrite !zlen_cons, IH. Qed.
Lemma zlen_mapi {A B} (f : Z -> A -> B) l : zlen (mapi f l) = zlen l.
Proof. apply zlen_mapi_from. Qed.
Lemma Znth_mapi_from {A B} (f : Z -> A -> B) l i k :
  Znth (mapi_from i f l) k = option_map (f (i + k)) (Znth l k).
Proof.
  revert i k; induction l as [|x l IH]; intros i k.
  - cbn [mapi_from]. rewrite !Znth_None; [reflexivity| |]; unfold zlen; simpl; lia.
  - cbn [mapi_from]. destruct (Z_lt_dec k 0); [rewrite !Znth_None by lia; reflexivity|].
    destruct (Z.eq_dec k 0) as [->|]; [rewrite !Znth_0; simpl; do 2 f_equal; lia|].
    rewrite !Znth_cons by lia. rewrite IH. do 2 f_equal. lia.
Qed.
Lemma Znth_mapi {A B} (f : Z -> A -> B) l k : Znth (mapi f l) k = option_map (f k) (Znth l k).
Proof. unfold mapi. rewrite Znth_mapi_from. reflexivity. Qed.
Lemma zlen_set_at {A} (l : list A) i v : zlen (set_at l i v) = zlen l.
Proof. apply zlen_mapi. Qed.
Lemma Znth_set_at {A} (l : list A) i v k :
  Znth (set_at l i v) k = if (k =? i) then (match Znth l k with Some _ => Some v | None => None end) else Znth l k.
Proof. unfold set_at. rewrite Znth_mapi. destruct (Znth l k); simpl; destruct (k =? i); reflexivity. Qed.
Lemma zlen_upd_range {A} a b f (l : list A) : zlen (upd_range a b f l) = zlen l.
Proof. apply zlen_mapi. Qed.
Lemma Znth_upd_range {A} a b f (l : list A) k :
  Znth (upd_range a b f l) k =
  if (a <=? k) && (k <? b) then option_map (f (k - a)) (Znth l k) else Znth l k.
Proof. unfold upd_range. rewrite Znth_mapi. destruct (Znth l k); simpl; destruct (_ && _); reflexivity. Qed.

Lemma Znth_combine {A B} (l : list A) (r : list B) j a b :
  Znth l j = Some a -> Znth r j = Some b -> Znth (combine l r) j = Some (a, b).
Proof.
  revert r j; induction l as [|x l IH]; intros r j Ha Hb.
  - apply Znth_In in Ha. destruct Ha.
  - destruct r as [|y r]; [apply Znth_In in Hb; destruct Hb|]. cbn [combine].
    assert (Hj := Znth_Some_lt _ _ _ Ha). destruct (Z.eq_dec j 0) as [->|].
    + rewrite Znth_0 in Ha. rewrite Znth_0 in Hb. rewrite Znth_0. congruence.
    + rewrite Znth_cons in Ha by lia. rewrite Znth_cons in Hb by lia. rewrite Znth_cons by lia. now apply IH.
Qed.

Lemma Forall2_same {A} (R : A -> A -> Prop) l : (forall a, In a l -> R a a) -> Forall2 R l l.
Proof. induction l; intros H; constructor; [apply H; now left|]. apply IHl. intros; apply H; now right. Qed.
Lemma Forall2_In2 {A B} (R : A -> B -> Prop) l l' : Forall2 R l l' -> Forall2 (fun a b => In a l /\ In b l' /\ R a b) l l'.
Proof.
  intros F. assert (G : forall L L', incl l L -> incl l' L' -> Forall2 (fun a b => In a L /\ In b L' /\ R a b) l l').
  { induction F; intros L L' I I'; constructor; [repeat split; auto; [apply I|apply I']; now left|]. apply IHF; intros z Hz; [apply I|apply I']; now right. }
  apply G; apply incl_refl.
Qed.
Lemma Forall2_map_left' {A B C} (R : C -> B -> Prop) (f : A -> C) l l' : Forall2 (fun a b => R (f a) b) l l' -> Forall2 R (map f l) l'.
Proof. induction 1; constructor; auto. Qed.
