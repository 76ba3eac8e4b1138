(** Lemmas about persistence-diagram plumbing. *)
From Verif Require Import Np NpFacts Fl FlFacts DiagTypes DiagModel DiagSpec.
Open Scope Z_scope.

(** *** set_at / cumsum *)
Lemma mapi_from_app {A B} (f : Z -> A -> B) l r i :
  mapi_from i f (l ++ r) = mapi_from i f l ++ mapi_from (i + zlen l) f r.
Proof.
  revert i; induction l as [|x l IH]; intros i; cbn [mapi_from app].
  - rewrite zlen_nil. f_equal. lia.
  - rewrite IH, zlen_cons. do 3 f_equal. lia.
Qed.
Lemma mapi_from_id {A} (f : Z -> A -> A) l i :
  (forall k x, i <= k < i + zlen l -> f k x = x) -> mapi_from i f l = l.
Proof.
  revert i; induction l as [|x l IH]; intros i H; cbn [mapi_from]; [reflexivity|].
  rewrite zlen_cons in H. pose proof (zlen_nonneg l).
  rewrite H by lia. f_equal. apply IH. intros; apply H; lia.
Qed.
Lemma mapi_from_ext {A B} (f g : Z -> A -> B) l i :
  (forall k x, i <= k < i + zlen l -> f k x = g k x) -> mapi_from i f l = mapi_from i g l.
Proof.
  revert i; induction l as [|x l IH]; intros i H; cbn [mapi_from]; [reflexivity|].
  rewrite zlen_cons in H. pose proof (zlen_nonneg l).
  rewrite H by lia. f_equal. apply IH. intros; apply H; lia.
Qed.
Lemma set_at_app1 {A} (l r : list A) i v : i < zlen l -> set_at (l ++ r) i v = set_at l i v ++ r.
Proof.
  intros H. unfold set_at, mapi. rewrite mapi_from_app. f_equal.
  apply mapi_from_id. intros k x Hk. destruct (Z.eqb_spec k i); [lia|reflexivity].
Qed.
Lemma set_at_app2 {A} (l r : list A) x v : set_at (l ++ x :: r) (zlen l) v = l ++ v :: r.
Proof.
  unfold set_at, mapi. rewrite mapi_from_app. cbn [mapi_from]. pose proof (zlen_nonneg l). f_equal; [|f_equal].
  - apply mapi_from_id. intros k y Hk. destruct (Z.eqb_spec k (zlen l)); [lia|reflexivity].
  - destruct (Z.eqb_spec (0 + zlen l) (zlen l)); [reflexivity|lia].
  - apply mapi_from_id. intros k y Hk. destruct (Z.eqb_spec k (zlen l)); [lia|reflexivity].
Qed.

Lemma cumsum_from_app acc l r :
  cumsum_from acc (l ++ r) = cumsum_from acc l ++ cumsum_from (acc + fold_right Z.add 0 l) r.
Proof.
  revert acc; induction l as [|x l IH]; intros acc; cbn [cumsum_from app fold_right].
  - f_equal. lia.
  - rewrite IH. do 3 f_equal. lia.
Qed.
Lemma cumsum_snoc l c : cumsum (l ++ [c]) = cumsum l ++ [fold_right Z.add 0 l + c].
Proof. unfold cumsum. rewrite cumsum_from_app. cbn [cumsum_from]. reflexivity. Qed.
Lemma zlen_cumsum_from acc l : zlen (cumsum_from acc l) = zlen l.
Proof. revert acc; induction l; intros; cbn [cumsum_from]; [reflexivity|]. now rewrite !zlen_cons, IHl. Qed.
Lemma zlen_cumsum l : zlen (cumsum l) = zlen l.
Proof. apply zlen_cumsum_from. Qed.
Lemma cumsum_ones acc n :
  cumsum_from acc (repeat 1 n) = map (fun k => acc + 1 + Z.of_nat k) (seq 0 n).
Proof.
  revert acc; induction n as [|n IH]; intros acc; [reflexivity|].
  cbn [repeat cumsum_from seq map]. f_equal; [lia|]. rewrite IH.
  rewrite <- seq_shift, map_map. apply map_ext. intros; lia.
Qed.
Lemma repeat_tabZ {A} n (x : A) : tabZ n (fun _ => x) = repeat x (Z.to_nat n).
Proof.
  unfold tabZ. induction (Z.to_nat n) as [|k IH]; [reflexivity|].
  cbn [seq map repeat]. f_equal. rewrite <- seq_shift, map_map. exact IH.
Qed.
Lemma zlen_repeat {A} (x : A) n : zlen (repeat x n) = Z.of_nat n.
Proof. unfold zlen. now rewrite repeat_length. Qed.
Lemma sum_repeat1 n : fold_right Z.add 0 (repeat 1 n) = Z.of_nat n.
Proof. induction n; cbn [repeat fold_right]; lia. Qed.
Lemma sum_app l r : fold_right Z.add 0 (l ++ r) = fold_right Z.add 0 l + fold_right Z.add 0 r.
Proof. induction l; cbn [app fold_right]; lia. Qed.

(** *** multirange *)
Definition incr_of (counts : list Z) : list Z :=
  let cs := cumsum counts in
  let incr := set_at (tabZ (last_default 0 cs) (fun _ => 1)) 0 0 in
  fold_left (fun inc rv => set_at inc (fst rv) (snd rv))
    (combine (removelast cs) (map (fun c => 1 - c) (removelast counts))) incr.

Lemma fold_set_app (l r : list Z) kvs :
  (forall kv, In kv kvs -> fst kv < zlen l) ->
  fold_left (fun inc rv => set_at inc (fst rv) (snd rv)) kvs (l ++ r) =
  fold_left (fun inc rv => set_at inc (fst rv) (snd rv)) kvs l ++ r.
Proof.
  revert l; induction kvs as [|[k v] kvs IH]; intros l H; [reflexivity|].
  cbn [fold_left fst snd]. rewrite set_at_app1 by (apply (H (k, v)); left; reflexivity).
  apply IH. intros kv Hkv. rewrite zlen_set_at. apply H. now right.
Qed.
Lemma zlen_fold_set (kvs : list (Z * Z)) : forall l : list Z,
  zlen (fold_left (fun inc rv => set_at inc (fst rv) (snd rv)) kvs l) = zlen l.
Proof. induction kvs as [|kv kvs IH]; intros l; [reflexivity|]. cbn [fold_left]. now rewrite IH, zlen_set_at. Qed.

Lemma sum_nonneg l : (forall c, In c l -> 1 <= c) -> zlen l <= fold_right Z.add 0 l.
Proof.
  induction l as [|x l IH]; intros H; [rewrite zlen_nil; simpl; lia|].
  rewrite zlen_cons. cbn [fold_right]. specialize (IH (fun c Hc => H c (or_intror Hc))).
  specialize (H x (or_introl eq_refl)). lia.
Qed.

Lemma last_cumsum l : l <> [] -> last (cumsum l) 0 = fold_right Z.add 0 l.
Proof.
  intros H. destruct (exists_last H) as [l' [a ->]]. rewrite cumsum_snoc, last_last, sum_app.
  cbn [fold_right]. lia.
Qed.
Lemma cumsum_bound l x : (forall c, In c l -> 1 <= c) -> In x (removelast (cumsum l)) ->
  x < fold_right Z.add 0 l.
Proof.
  induction l as [|c l IH] using rev_ind; [easy|]. intros H Hx.
  rewrite cumsum_snoc, removelast_last in Hx. rewrite sum_app. cbn [fold_right].
  assert (1 <= c) by (apply H, in_or_app; right; left; reflexivity).
  destruct l as [|y l]; [easy|].
  rewrite (app_removelast_last 0 (l := cumsum (y :: l))) in Hx by easy.
  rewrite last_cumsum in Hx by easy. apply in_app_or in Hx. destruct Hx as [Hx|[Hx|[]]]; [|lia].
  apply IH in Hx; [lia|]. intros; apply H, in_or_app; now left.
Qed.

Lemma incr_of_spec counts :
  counts <> [] -> (forall c, In c counts -> 1 <= c) ->
  cumsum (incr_of counts) = concat (map arange counts) /\
  fold_right Z.add 0 (incr_of counts) = last counts 0 - 1 /\
  zlen (incr_of counts) = fold_right Z.add 0 counts.
Proof.
  induction counts as [|c counts IH] using rev_ind; [easy|]. intros _ H.
  assert (Hc : 1 <= c) by (apply H, in_or_app; right; left; reflexivity).
  assert (Hcs : forall x, In x counts -> 1 <= x) by (intros; apply H, in_or_app; now left).
  destruct counts as [|y counts].
  - clear IH. cbn [app]. unfold incr_of. cbn [cumsum cumsum_from removelast combine fold_left map].
    unfold cumsum. cbn [cumsum_from]. unfold last_default. cbn [last]. rewrite repeat_tabZ.
    assert (E : exists n, Z.to_nat (0 + c) = S n /\ c = Z.of_nat n + 1) by (exists (Z.to_nat (c - 1)); lia).
    destruct E as [n [E1 ->]]. rewrite E1. cbn [repeat].
    change (1 :: repeat 1 n) with ([] ++ 1 :: repeat 1 n). rewrite (set_at_app2 [] (repeat 1 n) 1 0 : set_at _ 0 0 = _).
    cbn [app combine fold_left map concat]. rewrite app_nil_r. split; [|split].
    + cbn [cumsum_from]. rewrite cumsum_ones. unfold arange, tabZ.
      replace (Z.to_nat (Z.of_nat n + 1)) with (S n) by lia. cbn [seq map]. f_equal.
      rewrite <- seq_shift, map_map. apply map_ext. intros; lia.
    + cbn [fold_right last]. rewrite sum_repeat1. lia.
    + rewrite zlen_cons, zlen_repeat. cbn [fold_right]. lia.
  - destruct (IH ltac:(easy) Hcs) as [I1 [I2 I3]]. clear IH.
    set (cs := y :: counts) in *. set (tot := fold_right Z.add 0 cs) in *.
    assert (Htot : zlen cs <= tot) by (apply sum_nonneg; assumption).
    assert (Hlen : 1 <= zlen cs) by (unfold cs; rewrite zlen_cons; pose proof (zlen_nonneg counts); lia).
    assert (E : incr_of (cs ++ [c]) = incr_of cs ++ (1 - last cs 0) :: repeat 1 (Z.to_nat (c - 1))).
    { unfold incr_of at 1. rewrite cumsum_snoc. unfold last_default. rewrite last_last, !removelast_last.
      fold tot. rewrite (app_removelast_last 0 (l := cs)) at 2 by easy.
      rewrite (app_removelast_last 0 (l := cumsum cs)) at 1 by easy. rewrite last_cumsum by easy. fold tot.
      rewrite map_app. cbn [map].
      assert (L : length (removelast (cumsum cs)) = length (map (fun c0 => 1 - c0) (removelast cs))).
      { rewrite map_length. assert (E := zlen_cumsum cs). unfold zlen in E.
        assert (E1 := f_equal (@length Z) (app_removelast_last 0 (l := cs) ltac:(easy))).
        assert (E2 := f_equal (@length Z) (app_removelast_last 0 (l := cumsum cs) ltac:(easy))).
        rewrite app_length in E1, E2. cbn [length] in E1, E2. lia. }
      assert (CA : forall (a b : list Z) (u v : Z), length a = length b -> combine (a ++ [u]) (b ++ [v]) = combine a b ++ [(u, v)]).
      { clear. induction a as [|x a IHa]; intros [|z b] u v Hl; try discriminate; [reflexivity|].
        cbn [app combine]. f_equal. apply IHa. now injection Hl. }
      rewrite CA by exact L.
      rewrite fold_left_app. cbn [fold_left fst snd].
      replace (tabZ (tot + c) (fun _ => 1)) with (tabZ tot (fun _ => 1) ++ 1 :: repeat 1 (Z.to_nat (c - 1))).
      2:{ rewrite !repeat_tabZ. change (1 :: repeat 1 (Z.to_nat (c - 1))) with (repeat 1 (S (Z.to_nat (c - 1)))).
          rewrite <- repeat_app. f_equal. lia. }
      rewrite set_at_app1 by (rewrite zlen_tabZ; lia).
      rewrite fold_set_app.
      - assert (EI : fold_left (fun inc rv => set_at inc (fst rv) (snd rv))
           (combine (removelast (cumsum cs)) (map (fun c0 : Z => 1 - c0) (removelast cs)))
           (set_at (tabZ tot (fun _ => 1)) 0 0) = incr_of cs).
        { unfold incr_of, last_default. rewrite last_cumsum by easy. reflexivity. }
        rewrite EI. rewrite <- I3 at 1. rewrite set_at_app2. reflexivity.
      - intros [k v] Hkv. cbn [fst]. rewrite zlen_set_at, zlen_tabZ by lia.
        apply in_combine_l in Hkv. now apply cumsum_bound. }
    rewrite E. split; [|split].
    + unfold cumsum at 1. rewrite cumsum_from_app. fold (cumsum (incr_of cs)). rewrite I1, I2.
      rewrite map_app, concat_app. cbn [map concat]. rewrite app_nil_r. f_equal.
      cbn [cumsum_from]. rewrite cumsum_ones. unfold arange, tabZ.
      replace (Z.to_nat c) with (S (Z.to_nat (c - 1))) by lia. cbn [seq map]. f_equal; [lia|].
      rewrite <- seq_shift, map_map. apply map_ext. intros; lia.
    + rewrite sum_app, I2. cbn [fold_right]. rewrite sum_repeat1, last_last. lia.
    + rewrite zlen_app, I3, zlen_cons, zlen_repeat, sum_app. cbn [fold_right]. fold tot. lia.
Qed.

Lemma multirange_spec counts :
  counts <> [] -> (forall c, In c counts -> 1 <= c) ->
  multirange counts = concat (map arange counts).
Proof. intros H1 H2. exact (proj1 (incr_of_spec counts H1 H2)). Qed.

(** *** filter_dim *)
Lemma tabZ_mapi_from {A B} (X : list A) (f : Z -> A -> B) (g : Z -> B) :
  (forall i x, Znth X i = Some x -> g i = f i x) -> tabZ (zlen X) g = mapi f X.
Proof.
  intros H. apply Znth_ext.
  - rewrite zlen_mapi, zlen_tabZ; [reflexivity|apply zlen_nonneg].
  - intros i Hi. rewrite zlen_tabZ in Hi by apply zlen_nonneg.
    rewrite Znth_tabZ, Znth_mapi by lia. destruct (Znth_ex X i Hi) as [x Hx].
    rewrite Hx. simpl. f_equal. now apply H.
Qed.
Lemma nonzero_pts_mapi f X :
  nonzero_pts f X = concat (mapi (fun i x => map (fun p => (i, p)) (filter f x)) X).
Proof. unfold nonzero_pts. f_equal. apply tabZ_mapi_from. intros i x ->. reflexivity. Qed.

Lemma count_runs_head i n rest :
  (forall y, In y rest -> i < y) ->
  count_runs (repeat i n ++ rest) =
  match n with O => count_runs rest | S _ => (i, Z.of_nat n) :: count_runs rest end.
Proof.
  intros H. induction n as [|n IH]; [reflexivity|].
  cbn [repeat app count_runs]. rewrite IH. destruct n as [|n].
  - destruct (count_runs rest) as [|[y c] r] eqn:E; [reflexivity|].
    assert (In y rest).
    { clear -E. revert y c r E. induction rest as [|z rest IH]; [discriminate|]. intros y c r. cbn [count_runs].
      destruct (count_runs rest) as [|[y' c'] r'] eqn:E'.
      - intros [= <- <- <-]. now left.
      - destruct (Z.eqb_spec z y') as [->|].
        + intros [= <- <- <-]. now left.
        + intros [= <- <- <-]. now left. }
    apply H in H0. destruct (Z.eqb_spec i y); [lia|reflexivity].
  - rewrite Z.eqb_refl. do 2 f_equal. lia.
Qed.

Definition group_rows {A} (s : Z) (K : list (list A)) : list Z :=
  concat (mapi_from s (fun i k => repeat i (length k)) K).
Lemma group_rows_ge {A} (K : list (list A)) s y : In y (group_rows s K) -> s <= y.
Proof.
  revert s; induction K as [|k K IH]; intros s; [easy|].
  unfold group_rows. cbn [mapi_from concat]. intros H. apply in_app_or in H. destruct H as [H|H].
  - apply repeat_spec in H. lia.
  - apply IH in H. lia.
Qed.
Lemma count_runs_groups {A} (K : list (list A)) s :
  map snd (count_runs (group_rows s K)) = map zlen (filter (fun k => negb (zlen k =? 0)) K).
Proof.
  revert s; induction K as [|k K IH]; intros s; [reflexivity|].
  unfold group_rows. cbn [mapi_from concat]. fold (group_rows (s + 1) K).
  rewrite count_runs_head by (intros y Hy; apply group_rows_ge in Hy; lia).
  cbn [filter]. destruct k as [|a k]; [simpl; apply IH|].
  destruct (Z.eqb_spec (zlen (a :: k)) 0) as [E|E]; [rewrite zlen_cons in E; pose proof (zlen_nonneg k); lia|].
  cbn [length negb map snd]. rewrite IH. reflexivity.
Qed.
Lemma concat_arange_nonempty {A} (K : list (list A)) :
  concat (map arange (map zlen (filter (fun k => negb (zlen k =? 0)) K))) =
  concat (map (fun k => arange (zlen k)) K).
Proof.
  induction K as [|k K IH]; [reflexivity|]. cbn [filter map concat].
  destruct (Z.eqb_spec (zlen k) 0) as [E|E]; cbn [negb].
  - rewrite IH, E. reflexivity.
  - cbn [map concat]. now rewrite IH.
Qed.

Lemma combine_app {A B} (a a' : list A) (b b' : list B) :
  length a = length b -> combine (a ++ a') (b ++ b') = combine a b ++ combine a' b'.
Proof.
  revert b; induction a as [|x a IH]; intros [|y b] H; try discriminate; [reflexivity|].
  cbn [app combine]. f_equal. apply IH. now injection H.
Qed.
Definition entries {A} (i : Z) (ps : list A) : list ((Z * Z) * A) :=
  mapi (fun k p => ((i, k), p)) ps.
Lemma arange_S n : 0 <= n -> arange (n + 1) = 0 :: map (fun k => k + 1) (arange n).
Proof.
  intros H. unfold arange. rewrite tabZ_S_front, tabZ_map by assumption. reflexivity.
Qed.
Lemma entries_eq {A} (i : Z) (ps : list A) :
  combine (combine (repeat i (length ps)) (arange (zlen ps))) ps = entries i ps.
Proof.
  unfold entries, mapi.
  assert (G : forall s, combine (combine (repeat i (length ps)) (map (fun k => k + s) (arange (zlen ps)))) ps
     = mapi_from s (fun k p => ((i, k), p)) ps).
  { induction ps as [|p ps IH]; intros s; [reflexivity|].
    rewrite zlen_cons, arange_S by apply zlen_nonneg. cbn [length repeat map combine mapi_from]. f_equal.
    rewrite <- IH. do 2 f_equal. rewrite map_map. apply map_ext. intros; lia. }
  rewrite <- G. do 2 f_equal. rewrite <- (map_id (arange (zlen ps))) at 1. apply map_ext. intros; lia.
Qed.
Lemma length_arange_zlen {A} (k : list A) : length (arange (zlen k)) = length k.
Proof. unfold arange, tabZ, zlen. rewrite map_length, seq_length. lia. Qed.
Lemma combine_groups {A} (K : list (list A)) s :
  combine (combine (group_rows s K) (concat (map (fun k => arange (zlen k)) K))) (concat K) =
  concat (mapi_from s entries K).
Proof.
  revert s; induction K as [|k K IH]; intros s; [reflexivity|].
  unfold group_rows. cbn [mapi_from concat map]. fold (group_rows (s + 1) K).
  rewrite combine_app by now rewrite repeat_length, length_arange_zlen.
  rewrite combine_app by now rewrite combine_length, repeat_length, length_arange_zlen, Nat.min_id.
  rewrite IH, entries_eq. reflexivity.
Qed.

Definition put {A} (M : list (list A)) (e : (Z * Z) * A) := set_at2 M (fst (fst e)) (snd (fst e)) (snd e).
Lemma Znth_mid {A} (D T : list A) r : Znth (D ++ r :: T) (zlen D) = Some r.
Proof. rewrite Znth_app2 by lia. now replace (zlen D - zlen D) with 0 by lia. Qed.
Lemma put_row {A} (D T : list (list A)) (done rest : list A) (ps : list A) :
  zlen ps <= zlen rest ->
  fold_left put (mapi_from (zlen done) (fun k p => ((zlen D, k), p)) ps) (D ++ (done ++ rest) :: T)
  = D ++ (done ++ ps ++ skipn (length ps) rest) :: T.
Proof.
  revert done rest; induction ps as [|p ps IH]; intros done rest H; [reflexivity|].
  destruct rest as [|x rest].
  { rewrite zlen_cons, zlen_nil in H. pose proof (zlen_nonneg ps). lia. }
  rewrite (zlen_cons p), (zlen_cons x) in H.
  cbn [mapi_from fold_left]. unfold put at 2. cbn [fst snd]. unfold set_at2.
  rewrite Znth_mid, !set_at_app2.
  replace (done ++ p :: rest) with ((done ++ [p]) ++ rest) by now rewrite <- app_assoc.
  replace (zlen done + 1) with (zlen (done ++ [p])) by (rewrite zlen_app; reflexivity).
  rewrite IH by lia. cbn [length skipn app]. now rewrite <- !app_assoc.
Qed.
Lemma put_groups {A} (pad : A) (n : nat) (K : list (list A)) (D : list (list A)) :
  (forall k, In k K -> (length k <= n)%nat) ->
  fold_left put (concat (mapi_from (zlen D) entries K)) (D ++ repeat (repeat pad n) (length K))
  = D ++ map (fun k => k ++ repeat pad (n - length k)) K.
Proof.
  revert D; induction K as [|k K IH]; intros D H; [reflexivity|].
  cbn [mapi_from concat length repeat map]. rewrite fold_left_app. unfold entries at 2, mapi.
  assert (Hk := H k (or_introl eq_refl)).
  pose proof (put_row D (repeat (repeat pad n) (length K)) [] (repeat pad n) k) as P.
  change (zlen (@nil A)) with 0 in P. cbn [app] in P. rewrite P by (unfold zlen; rewrite repeat_length; lia).
  replace (skipn (length k) (repeat pad n)) with (repeat pad (n - length k)).
  2:{ replace n with (length k + (n - length k))%nat at 2 by lia. rewrite repeat_app, skipn_app.
      rewrite repeat_length, Nat.sub_diag, skipn_all2 by (rewrite repeat_length; lia). reflexivity. }
  replace (D ++ (k ++ repeat pad (n - length k)) :: repeat (repeat pad n) (length K))
    with ((D ++ [k ++ repeat pad (n - length k)]) ++ repeat (repeat pad n) (length K)) by now rewrite <- app_assoc.
  replace (zlen D + 1) with (zlen (D ++ [k ++ repeat pad (n - length k)])) by (rewrite zlen_app; reflexivity).
  rewrite IH by (intros; apply H; now right). now rewrite <- app_assoc.
Qed.

Lemma zmax_list_ge l x : In x l -> x <= zmax_list l.
Proof. induction l; [easy|]. cbn [zmax_list fold_right]. fold (zmax_list l). intros [->|H]; [lia|]. specialize (IHl H). lia. Qed.
Lemma zmax_list_nonneg l : 0 <= zmax_list l.
Proof. induction l; cbn [zmax_list fold_right]; [lia|]. fold (zmax_list l). lia. Qed.
Lemma zmax_list_in l : l <> [] -> (forall x, In x l -> 0 <= x) -> In (zmax_list l) l.
Proof.
  induction l as [|x l IH]; [easy|]. intros _ H. cbn [zmax_list fold_right]. fold (zmax_list l).
  destruct l as [|y l].
  - left. assert (0 <= x) by (apply H; now left). simpl. lia.
  - destruct (Z.max_spec x (zmax_list (y :: l))) as [[_ ->]|[_ ->]]; [right|now left].
    apply IH; [easy|]. intros; apply H; now right.
Qed.

(** np_min *)
Lemma fmin_fold_spec t x :
  isnan x = false -> (forall y, In y t -> isnan y = false) ->
  In (fold_left fmin t x) (x :: t) /\ forall y, In y (x :: t) -> fle (fold_left fmin t x) y = true.
Proof.
  revert x; induction t as [|z t IH]; intros x Hx Ht; cbn [fold_left].
  - split; [now left|]. intros y [->|[]]. now apply fle_refl.
  - assert (Hz := Ht z (or_introl eq_refl)).
    assert (E : fmin x z = x /\ fle x z = true \/ fmin x z = z /\ fle z x = true).
    { unfold fmin. rewrite Hx, Hz. cbn [orb]. destruct (fle x z) eqn:E; [auto|].
      right. split; [reflexivity|]. apply flt_fle, fle_false; auto. }
    destruct (IH (fmin x z)) as [I1 I2].
    { destruct E as [[-> _]|[-> _]]; assumption. }
    { intros; apply Ht; now right. }
    split.
    + destruct I1 as [I1|I1]; [|right; now right]. rewrite <- I1.
      destruct E as [[-> _]|[-> _]]; [now left|right; now left].
    + assert (Hm := I2 _ (or_introl eq_refl)).
      intros y [<-|[<-|Hy]].
      * eapply fle_trans; [exact Hm|]. destruct E as [[-> _]|[-> ?]]; [now apply fle_refl|assumption].
      * eapply fle_trans; [exact Hm|]. destruct E as [[-> ?]|[-> _]]; [assumption|now apply fle_refl].
      * apply I2. now right.
Qed.
Lemma np_min_spec l :
  l <> [] -> (forall y, In y l -> isnan y = false) ->
  exists m, np_min l = Ok m /\ In m l /\ forall y, In y l -> fle m y = true.
Proof.
  destruct l as [|x t]; [easy|]. intros _ H. exists (fold_left fmin t x). split; [reflexivity|].
  apply fmin_fold_spec; [apply H; now left|]. intros; apply H; now right.
Qed.

Lemma filter_filter {A} (f g : A -> bool) l : filter f (filter g l) = filter (fun x => g x && f x) l.
Proof.
  induction l as [|x l IH]; [reflexivity|]. cbn [filter]. destruct (g x) eqn:G; cbn [andb filter].
  - destruct (f x); now rewrite IH.
  - exact IH.
Qed.
Lemma filter_all {A} (f : A -> bool) l : (forall x, In x l -> f x = true) -> filter f l = l.
Proof. induction l as [|x l IH]; intros H; [reflexivity|]. cbn [filter]. rewrite H by now left. f_equal. apply IH; intros; apply H; now right. Qed.
Lemma filter_none {A} (f : A -> bool) l : (forall x, In x l -> f x = false) -> filter f l = [].
Proof. induction l as [|x l IH]; intros H; [reflexivity|]. cbn [filter]. rewrite H by now left. apply IH; intros; apply H; now right. Qed.
Lemma fsub_nan_l x y : isnan x = true -> isnan (fsub x y) = true.
Proof. destruct x; easy. Qed.
Lemma fsub_nan_r x y : isnan y = true -> isnan (fsub x y) = true.
Proof. destruct y; [|easy..]. destruct x; easy. Qed.

Lemma concat_nil_iff {A} (K : list (list A)) : concat K = [] <-> forall k, In k K -> k = [].
Proof.
  induction K as [|k K IH]; cbn [concat]; [easy|]. split.
  - intros H. apply app_eq_nil in H. destruct H as [-> H]. intros k [<-|Hk]; [reflexivity|].
    now apply IH.
  - intros H. rewrite (H k (or_introl eq_refl)). apply IH. intros; apply H; now right.
Qed.
Lemma map_mapi_from {A B C} (g : B -> C) (f : Z -> A -> B) l s :
  map g (mapi_from s f l) = mapi_from s (fun i x => g (f i x)) l.
Proof. revert s; induction l; intros; cbn [mapi_from map]; [reflexivity|]. now rewrite IHl. Qed.
Lemma mapi_from_map {A B C} (g : A -> B) (f : Z -> B -> C) l s :
  mapi_from s f (map g l) = mapi_from s (fun i x => f i (g x)) l.
Proof. revert s; induction l; intros; cbn [mapi_from map]; [reflexivity|]. now rewrite IHl. Qed.
Lemma mapi_from_const {A B} (g : A -> B) l s : mapi_from s (fun _ x => g x) l = map g l.
Proof. revert s; induction l; intros; cbn [mapi_from map]; [reflexivity|]. now rewrite IHl. Qed.

Lemma padded_eq n m q k : zlen k <= n ->
  padded n m q k = k ++ repeat (Pt m m q) (Z.to_nat n - length k).
Proof.
  intros H. unfold padded, diag_rows, zlen in *. do 2 f_equal. lia.
Qed.

Lemma filter_dim_spec X cutoff q :
  X <> [] ->
  exists n m,
    filter_dim X cutoff q = Ok (map (fun x => padded n m q (long_lived cutoff q x)) X) /\
    is_slot_count n (map (long_lived cutoff q) X) /\
    is_padding_value m (map (long_lived cutoff q) X).
Proof.
  intros HX. unfold filter_dim.
  set (f := fun p => feq (pq p) q && flt cutoff (fsub (pd p) (pb p))).
  assert (Hf : forall x, filter f x = long_lived cutoff q x).
  { intros x. unfold long_lived, rows_of. rewrite filter_filter. reflexivity. }
  set (K := map (long_lived cutoff q) X).
  assert (Hidx : nonzero_pts f X = concat (mapi (fun i k => map (fun p => (i, p)) k) K)).
  { rewrite nonzero_pts_mapi. unfold mapi, K. rewrite mapi_from_map. f_equal. apply mapi_from_ext.
    intros. now rewrite Hf. }
  assert (Hfst : map fst (nonzero_pts f X) = group_rows 0 K).
  { rewrite Hidx. unfold group_rows, mapi. rewrite concat_map, map_mapi_from. f_equal. apply mapi_from_ext.
    intros i k _. rewrite map_map. simpl. clear. induction k; simpl; [reflexivity|]. now rewrite IHk. }
  assert (Hsnd : map snd (nonzero_pts f X) = concat K).
  { rewrite Hidx. unfold mapi. rewrite concat_map, map_mapi_from. f_equal.
    transitivity (mapi_from 0 (fun _ (k : diagram) => k) K); [|rewrite mapi_from_const; apply map_id].
    apply mapi_from_ext. intros i k _. rewrite map_map. simpl. apply map_id. }
  assert (Hlen : zlen (nonzero_pts f X) = zlen (concat K)) by (rewrite <- Hsnd; now rewrite zlen_map).
  destruct (Z.eqb_spec (zlen (nonzero_pts f X)) 0) as [E|E].
  - exists 1, f0. rewrite Hlen in E.
    assert (Hc : concat K = []) by (destruct (concat K); [reflexivity|]; rewrite zlen_cons in E; pose proof (zlen_nonneg l); lia).
    rewrite concat_nil_iff in Hc. split; [|split].
    + f_equal. assert (E2 : tabZ (zlen X) (fun _ => [Pt f0 f0 q]) = mapi (fun _ _ => [Pt f0 f0 q]) X)
        by (apply tabZ_mapi_from; reflexivity). rewrite E2. unfold mapi. rewrite mapi_from_const.
      apply map_ext_in. intros x Hx. rewrite (Hc (long_lived cutoff q x)) by (apply in_map; assumption). reflexivity.
    + split; [lia|]. split; [|now left]. intros l Hl. rewrite (Hc l Hl). rewrite zlen_nil. lia.
    + left. split; [reflexivity|]. exact Hc.
  - rewrite Hlen in E. rewrite Hsnd, Hfst, count_runs_groups.
    set (counts := map zlen (filter (fun k => negb (zlen k =? 0)) K)).
    assert (Hne : concat K <> []) by (intros H0; rewrite H0 in E; now rewrite zlen_nil in E).
    assert (Hb : forall y, In y (map pb (concat K)) -> isnan y = false).
    { intros y Hy. apply in_map_iff in Hy. destruct Hy as [p [<- Hp]]. apply in_concat in Hp.
      destruct Hp as [k [Hk Hp]]. unfold K in Hk. apply in_map_iff in Hk. destruct Hk as [x [<- _]].
      unfold long_lived in Hp. apply filter_In in Hp. destruct Hp as [_ Hp].
      apply flt_nan in Hp. destruct Hp as [_ Hp]. destruct (isnan (pb p)) eqn:N; [|reflexivity].
      apply (fsub_nan_r (pd p)) in N. congruence. }
    destruct (np_min_spec (map pb (concat K))) as [m [Hm [Hm1 Hm2]]].
    { intros H0. apply map_eq_nil in H0. contradiction. }
    { exact Hb. }
    rewrite Hm. cbn [bind].
    assert (Hc1 : forall c, In c counts -> 1 <= c).
    { intros c Hc. unfold counts in Hc. apply in_map_iff in Hc. destruct Hc as [k [<- Hk]].
      apply filter_In in Hk. destruct Hk as [_ Hk]. apply negb_true_iff, Z.eqb_neq in Hk. pose proof (zlen_nonneg k). lia. }
    assert (Hcn : counts <> []).
    { unfold counts. intros H0. apply map_eq_nil in H0. apply Hne. apply concat_nil_iff. intros k Hk.
      destruct k as [|p k]; [reflexivity|exfalso].
      assert (In (p :: k) (filter (fun k => negb (zlen k =? 0)) K)).
      { apply filter_In. split; [assumption|]. rewrite zlen_cons. pose proof (zlen_nonneg k).
        destruct (Z.eqb_spec (zlen k + 1) 0); [lia|reflexivity]. }
      rewrite H0 in H. destruct H. }
    rewrite multirange_spec by assumption. unfold counts at 2. rewrite concat_arange_nonempty.
    unfold scatter. fold (@put pt). rewrite combine_groups.
    set (n := zmax_list counts).
    assert (Hn : In n counts).
    { apply zmax_list_in; [assumption|]. intros c Hc. specialize (Hc1 c Hc). lia. }
    assert (Hmax : forall k, In k K -> zlen k <= n).
    { intros k Hk. destruct (Z.eqb_spec (zlen k) 0) as [E0|E0].
      - rewrite E0. specialize (Hc1 _ Hn). lia.
      - apply zmax_list_ge. unfold counts. apply in_map. apply filter_In. split; [assumption|].
        destruct (Z.eqb_spec (zlen k) 0); [lia|reflexivity]. }
    exists n, m. split; [|split].
    + f_equal. assert (E2 : tabZ (zlen X) (fun _ => tabZ n (fun _ => Pt m m q)) = repeat (repeat (Pt m m q) (Z.to_nat n)) (length K)).
      { rewrite (repeat_tabZ n). rewrite repeat_tabZ. f_equal. unfold K, zlen. rewrite map_length. lia. }
      rewrite E2.
      pose proof (put_groups (Pt m m q) (Z.to_nat n) K []) as P. rewrite (zlen_nil (A := list pt)) in P.
      cbn [app] in P. unfold put in P. etransitivity.
      { apply P. intros k Hk. apply Hmax in Hk. unfold zlen in Hk. lia. }
      unfold K. rewrite map_map. apply map_ext_in. intros x Hx. symmetry. apply padded_eq.
      apply Hmax. unfold K. now apply in_map.
    + split; [apply Hc1; assumption|]. split; [assumption|]. right.
      unfold counts in Hn. apply in_map_iff in Hn. destruct Hn as [k [Hk1 Hk2]]. apply filter_In in Hk2.
      exists k. tauto.
    + right. split.
      * apply in_map_iff in Hm1. destruct Hm1 as [p [Hp1 Hp2]]. apply in_concat in Hp2.
        destruct Hp2 as [k [Hk Hp]]. exists k, p. auto.
      * intros k p Hk Hp. apply Hm2. apply in_map. apply in_concat. exists k. auto.
Qed.

(** *** subdiagrams *)
Lemma zlen_concat {A} (L : list (list A)) : zlen (concat L) = fold_right Z.add 0 (map zlen L).
Proof. induction L; [reflexivity|]. cbn [concat map fold_right]. now rewrite zlen_app, IHL. Qed.
Lemma filter_concat {A} (f : A -> bool) L : filter f (concat L) = concat (map (filter f) L).
Proof. induction L; [reflexivity|]. cbn [concat map]. now rewrite filter_app, IHL. Qed.
Lemma chunk_concat {A} (L : list (list A)) k :
  (forall l, In l L -> length l = k) -> chunk (length L) k (concat L) = L.
Proof.
  induction L as [|l L IH]; intros H; [reflexivity|].
  cbn [length chunk concat]. assert (Hl := H l (or_introl eq_refl)).
  rewrite firstn_app, skipn_app, Hl, Nat.sub_diag, firstn_all2, skipn_all2 by lia. cbn [firstn skipn app].
  rewrite app_nil_r. f_equal. apply IH. intros; apply H; now right.
Qed.
Lemma np_reshape_concat {A} (L : list (list A)) k n :
  n = zlen L -> (forall l, In l L -> zlen l = k) -> 0 <= k -> np_reshape n k (concat L) = Ok L.
Proof.
  intros -> H Hk. unfold np_reshape. rewrite (zlen_concat_uniform L k H), Z.eqb_refl. f_equal.
  unfold zlen at 1. rewrite Nat2Z.id. apply chunk_concat. intros l Hl. apply H in Hl. unfold zlen in Hl. lia.
Qed.

Lemma subdiagrams_single_ok X q :
  X <> [] -> balanced q X -> subdiagrams_single X q = Ok (map (rows_of q) X).
Proof.
  intros HX [n Hn]. destruct X as [|x0 X]; [easy|]. cbv beta iota delta [subdiagrams_single].
  rewrite filter_concat.
  apply np_reshape_concat.
  - now rewrite zlen_map.
  - intros l Hl. apply in_map_iff in Hl. destruct Hl as [x [<- Hx]].
    fold (rows_of q x) (rows_of q x0). rewrite (Hn x Hx). symmetry. apply Hn. now left.
  - apply zlen_nonneg.
Qed.

Lemma hcat_maps {A B} (X : list A) (fs : list (A -> list B)) :
  hcat (zlen X) (map (fun f => map f X) fs) = map (fun x => concat (map (fun f => f x) fs)) X.
Proof.
  unfold hcat. rewrite <- (mapi_from_const (fun x => concat (map (fun f => f x) fs)) X 0).
  apply (tabZ_mapi_from X (fun _ x => concat (map (fun f => f x) fs))).
  intros i x Hx. f_equal. rewrite map_map. apply map_ext. intros f. rewrite Znth_map, Hx. reflexivity.
Qed.

Lemma subdiagrams_ok X qs :
  X <> [] -> qs <> [] -> (forall q, In q qs -> balanced q X) ->
  subdiagrams X qs = Ok (map (fun x => concat (map (fun q => rows_of q x) qs)) X).
Proof.
  intros HX Hq Hb. unfold subdiagrams. destruct X as [|x0 X]; [easy|].
  destruct qs as [|q [|q' qs]]; [easy| |].
  - rewrite subdiagrams_single_ok by (auto; apply Hb; now left). f_equal. apply map_ext. intros x.
    cbn [map concat]. now rewrite app_nil_r.
  - rewrite (mapM_Ok _ (fun q => map (rows_of q) (x0 :: X))).
    2:{ intros r Hr. apply subdiagrams_single_ok; auto. }
    cbn [bind]. f_equal. pose proof (hcat_maps (x0 :: X) (map rows_of (q :: q' :: qs))) as E.
    rewrite !map_map in E. etransitivity; [exact E|]. apply map_ext. intros x. now rewrite map_map.
Qed.

Lemma subdiagrams_total X q R :
  subdiagrams X [q] = Ok R -> zlen (concat (map (rows_of q) X)) = zlen X * zlen (rows_of q (hd [] X)).
Proof.
  destruct X as [|x0 X]; [discriminate|].
  change (subdiagrams (x0 :: X) [q]) with (np_reshape (zlen (x0 :: X)) (zlen (rows_of q x0)) (rows_of q (concat (x0 :: X)))).
  unfold np_reshape. destruct (Z.eqb_spec (zlen (rows_of q (concat (x0 :: X)))) (zlen (x0 :: X) * zlen (rows_of q x0))) as [E|E]; [|discriminate].
  intros _. unfold rows_of at 1 in E. rewrite filter_concat in E. exact E.
Qed.

(** *** filter *)
Lemma filter_diagrams_ok X filtered cutoff :
  X <> [] ->
  (forall q, In q (np_unique (map pq (hd [] X))) -> memf q filtered = false -> balanced q X) ->
  exists ns ms,
    zlen ns = zlen filtered /\ zlen ms = zlen filtered /\
    (forall i q, Znth filtered i = Some q -> exists n m,
        Znth ns i = Some n /\ Znth ms i = Some m /\
        is_slot_count n (map (long_lived cutoff q) X) /\
        is_padding_value m (map (long_lived cutoff q) X)) /\
    filter_diagrams X filtered cutoff = Ok (map (fun x =>
       concat (map (fun qnm => padded (fst (snd qnm)) (snd (snd qnm)) (fst qnm)
                                (long_lived cutoff (fst qnm) x))
                   (combine filtered (combine ns ms)))
       ++ concat (map (fun q => rows_of q x)
            (filter (fun q => negb (memf q filtered)) (np_unique (map pq (hd [] X)))))) X).
Proof.
  intros HX Hb. unfold filter_diagrams.
  assert (Huf : exists Xuf, match filter (fun q => negb (memf q filtered)) (np_unique (map pq (hd [] X))) with
            | [] => Ok (tabZ (zlen X) (fun _ => []))
            | _ => subdiagrams X (filter (fun q => negb (memf q filtered)) (np_unique (map pq (hd [] X))))
            end = Ok Xuf /\ Xuf = map (fun x => concat (map (fun q => rows_of q x)
            (filter (fun q => negb (memf q filtered)) (np_unique (map pq (hd [] X)))))) X).
  { destruct (filter _ _) as [|u us] eqn:E.
    - eexists. split; [reflexivity|]. rewrite repeat_tabZ. unfold zlen. rewrite Nat2Z.id. cbn [map concat].
      clear. induction X; simpl; [reflexivity|]. now rewrite IHX.
    - eexists. split; [|reflexivity]. apply subdiagrams_ok; [assumption|easy|].
      intros q Hq. rewrite <- E in Hq. apply filter_In in Hq. destruct Hq as [H1 H2].
      apply Hb; [assumption|]. now apply negb_true_iff. }
  destruct Huf as [Xuf [Huf ->]].
  assert (Hf : exists ns ms, zlen ns = zlen filtered /\ zlen ms = zlen filtered /\
    (forall i q, Znth filtered i = Some q -> exists n m,
        Znth ns i = Some n /\ Znth ms i = Some m /\
        is_slot_count n (map (long_lived cutoff q) X) /\
        is_padding_value m (map (long_lived cutoff q) X)) /\
    mapM (filter_dim X cutoff) filtered = Ok (map (fun qnm => map (fun x => padded (fst (snd qnm)) (snd (snd qnm)) (fst qnm)
                                (long_lived cutoff (fst qnm) x)) X)
                   (combine filtered (combine ns ms)))).
  { clear Huf Hb. induction filtered as [|q qs IH].
    - exists [], []. repeat split. intros i q Hq. apply Znth_In in Hq. destruct Hq.
    - destruct IH as [ns [ms [L1 [L2 [H1 H2]]]]]. destruct (filter_dim_spec X cutoff q HX) as [n [m [F [S P]]]].
      exists (n :: ns), (m :: ms). rewrite !zlen_cons. split; [lia|]. split; [lia|]. split.
      + intros i r Hr. destruct (Z.eq_dec i 0) as [->|].
        * rewrite Znth_0 in Hr. injection Hr as <-. exists n, m. auto.
        * assert (Hi := Znth_Some_lt _ _ _ Hr). rewrite Znth_cons in Hr by lia.
          destruct (H1 _ _ Hr) as [n' [m' H3]]. exists n', m'. rewrite !Znth_cons by lia. exact H3.
      + cbn [mapM combine map]. rewrite F. cbn [bind]. rewrite H2. reflexivity. }
  destruct Hf as [ns [ms [L1 [L2 [H1 H2]]]]].
  exists ns, ms. split; [assumption|]. split; [assumption|]. split; [assumption|].
  assert (Hfd : first_dims X = Ok (np_unique (map pq (hd [] X)))) by (destruct X; [easy|reflexivity]).
  rewrite Hfd. cbn [bind].
  etransitivity; [refine (f_equal (fun r => bind r _) Huf)|]. cbn [bind]. rewrite H2. cbn [bind]. f_equal.
  pose proof (hcat_maps X (map (fun qnm x => padded (fst (snd qnm)) (snd (snd qnm)) (fst qnm)
                                (long_lived cutoff (fst qnm) x)) (combine filtered (combine ns ms))
     ++ [fun x => concat (map (fun q => rows_of q x)
            (filter (fun q => negb (memf q filtered)) (np_unique (map pq (hd [] X)))))])) as E.
  rewrite map_app, map_map in E. cbn [map] in E. etransitivity; [exact E|]. apply map_ext. intros x.
  rewrite map_app, map_map, concat_app. cbn [map concat]. now rewrite app_nil_r.
Qed.
