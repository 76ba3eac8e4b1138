From Verif Require Import Np NpFacts Nd.
Open Scope Z_scope.

Lemma size_nonneg s : (forall n, In n s -> 0 <= n) -> 0 <= nd_size s.
Proof.
  induction s as [|n s IH]; intros H; [cbn; lia|]. cbn [nd_size]. apply Z.mul_nonneg_nonneg; [apply H; now left|]. apply IH. intros m Hm. apply H. now right.
Qed.
Lemma inside_cons n s i idx : inside (n :: s) (i :: idx) = true <-> 0 <= i < n /\ inside s idx = true.
Proof. cbn [inside]. rewrite !andb_true_iff, Z.leb_le, Z.ltb_lt. tauto. Qed.
Lemma inside_length s : forall idx, inside s idx = true -> length idx = length s.
Proof. induction s as [|n s IH]; intros [|i idx] H; try discriminate; [reflexivity|]. apply inside_cons in H. cbn [length]. f_equal. now apply IH. Qed.
Lemma In_indices s : forall idx, In idx (indices s) <-> inside s idx = true.
Proof.
  induction s as [|n s IH]; intros idx.
  - destruct idx; cbn; [tauto|]. split; [intros [H|[]]; discriminate|discriminate].
  - cbn [indices]. rewrite in_flat_map. split.
    + intros [i [Hi H]]. apply in_map_iff in H. destruct H as [r [<- Hr]]. apply In_arange in Hi. apply inside_cons. split; [assumption|]. now apply IH.
    + destruct idx as [|i idx]; [discriminate|]. intros H. apply inside_cons in H. destruct H as [H1 H2]. exists i. split; [now apply In_arange|]. apply in_map. now apply IH.
Qed.
Lemma NoDup_flat_map {A B} (f : A -> list B) l : NoDup l -> (forall a, In a l -> NoDup (f a)) ->
  (forall a a' b, In a l -> In a' l -> In b (f a) -> In b (f a') -> a = a') -> NoDup (flat_map f l).
Proof.
  induction l as [|a l IH]; intros N Hf HD; [constructor|]. cbn [flat_map]. inversion N as [|? ? N1 N2]; subst.
  assert (NA : forall (l1 l2 : list B), NoDup l1 -> NoDup l2 -> (forall b, In b l1 -> ~ In b l2) -> NoDup (l1 ++ l2)).
  { induction l1 as [|b l1 IH1]; intros l2 M1 M2 D; [assumption|]. inversion M1; subst. cbn [app]. constructor.
    - rewrite in_app_iff. intros [|]; [contradiction|]. apply (D b); [now left|assumption].
    - apply IH1; auto. intros c Hc. apply D. now right. }
  apply NA.
  - apply Hf. now left.
  - apply IH; [assumption| |].
    + intros. apply Hf. now right.
    + intros a1 a2 b H1 H2. apply HD; now right.
  - intros b Hb Hb'. apply in_flat_map in Hb'. destruct Hb' as [a' [Ha' Hb']]. apply N1. rewrite (HD a a' b); auto; [now left|now right].
Qed.
Lemma NoDup_indices s : NoDup (indices s).
Proof.
  induction s as [|n s IH]; [constructor; [easy|constructor]|]. cbn [indices]. apply NoDup_flat_map.
  - apply NoDup_arange.
  - intros i _. clear - IH. induction (indices s) as [|x l IHl]; [constructor|]. inversion IH; subst. cbn [map]. constructor; [|auto].
    intros H. apply in_map_iff in H. destruct H as [y [E Hy]]. injection E as ->. contradiction.
  - intros a a' b _ _ H H'. apply in_map_iff in H, H'. destruct H as [r [<- _]], H' as [r' [E _]]. congruence.
Qed.
Lemma zlen_indices s : (forall n, In n s -> 0 <= n) -> zlen (indices s) = nd_size s.
Proof.
  induction s as [|n s IH]; intros H; [reflexivity|]. cbn [indices nd_size]. assert (Hs : forall m, In m s -> 0 <= m) by (intros; apply H; now right).
  rewrite flat_map_concat_map, (zlen_concat_uniform _ (nd_size s)).
  - rewrite zlen_map, zlen_arange; [reflexivity|apply H; now left].
  - intros r Hr. apply in_map_iff in Hr. destruct Hr as [i [<- _]]. rewrite zlen_map. now apply IH.
Qed.
Lemma ravel_bounds s : forall idx, inside s idx = true -> 0 <= ravel s idx < nd_size s.
Proof.
  induction s as [|n s IH]; intros [|i idx] H; try discriminate; [cbn; lia|]. apply inside_cons in H. destruct H as [H1 H2]. specialize (IH idx H2). cbn [ravel nd_size]. nia.
Qed.
Lemma inside_nonneg s : forall idx, inside s idx = true -> forall n, In n s -> 0 <= n.
Proof. induction s as [|m s IH]; intros [|i idx] H n Hn; try discriminate; [easy|]. apply inside_cons in H. destruct Hn as [<-|Hn]; [lia|]. now apply (IH idx). Qed.
Lemma Znth_indices s : forall idx, inside s idx = true -> Znth (indices s) (ravel s idx) = Some idx.
Proof.
  induction s as [|n s IH]; intros [|i idx] H; try discriminate; [reflexivity|]. pose proof (inside_nonneg _ _ H) as HN.
  apply inside_cons in H. destruct H as [H1 H2]. cbn [indices ravel].
  rewrite flat_map_concat_map, (Znth_concat_uniform _ (nd_size s) i (ravel s idx) (map (cons i) (indices s))).
  - rewrite Znth_map, IH by assumption. reflexivity.
  - intros r Hr. apply in_map_iff in Hr. destruct Hr as [j [<- _]]. rewrite zlen_map. apply zlen_indices. intros m Hm. apply HN. now right.
  - rewrite Znth_map, Znth_arange by lia. reflexivity.
  - now apply ravel_bounds.
Qed.

Lemma at_mk {A} s (f : list Z -> A) idx : nget (mk s f) idx = if inside s idx then Some (f idx) else None.
Proof.
  unfold nget, mk. cbn [nshape ndata]. destruct (inside s idx) eqn:E; [|reflexivity]. rewrite Znth_map, Znth_indices by assumption. reflexivity.
Qed.
Lemma at_nmap {A B} (f : A -> B) a idx : nget (nmap f a) idx = option_map f (nget a idx).
Proof. unfold nget, nmap. cbn [nshape ndata]. destruct (inside _ _); [|reflexivity]. apply Znth_map. Qed.
Lemma at_Some {A} (a : nd A) idx : wf a -> inside (nshape a) idx = true -> exists v, nget a idx = Some v.
Proof. intros [_ L] H. unfold nget. rewrite H. apply Znth_ex. rewrite L. now apply ravel_bounds. Qed.
Lemma at_inside {A} (a : nd A) idx v : nget a idx = Some v -> inside (nshape a) idx = true.
Proof. unfold nget. now destruct (inside _ _). Qed.
Lemma at_nzip {A B C} (f : A -> B -> C) a b idx u v : nshape b = nshape a ->
  nget a idx = Some u -> nget b idx = Some v -> nget (nzip f a b) idx = Some (f u v).
Proof.
  intros E Hu Hv. unfold nget, nzip in *. cbn [nshape ndata]. rewrite E in Hv. destruct (inside (nshape a) idx) eqn:EI; [|discriminate].
  rewrite Znth_map, (Znth_combine _ _ _ u v) by assumption. reflexivity.
Qed.
Lemma at_nzip' {A B C} (f : A -> B -> C) a b idx u v w : nshape b = nshape a ->
  nget a idx = Some u -> nget b idx = Some v -> w = f u v -> nget (nzip f a b) idx = Some w.
Proof. intros E Hu Hv ->. now apply at_nzip. Qed.
Lemma wf_mk {A} s (f : list Z -> A) : (forall n, In n s -> 0 <= n) -> wf (mk s f).
Proof. intros H. split; [exact H|]. cbn [mk ndata nshape]. rewrite zlen_map. now apply zlen_indices. Qed.
Lemma wf_nmap {A B} (f : A -> B) a : wf a -> wf (nmap f a).
Proof. intros [H L]. split; [exact H|]. cbn [nmap ndata nshape]. now rewrite zlen_map. Qed.
Lemma zlen_combine {A B} (l : list A) (r : list B) : zlen l = zlen r -> zlen (combine l r) = zlen l.
Proof. unfold zlen. rewrite combine_length. lia. Qed.
Lemma wf_nzip {A B C} (f : A -> B -> C) a b : wf a -> wf b -> nshape b = nshape a -> wf (nzip f a b).
Proof. intros [H L] [_ L'] E. split; [exact H|]. cbn [nzip ndata nshape]. rewrite zlen_map, zlen_combine; [assumption|]. rewrite L, L', E. reflexivity. Qed.
(** The index tuple at a position. *)
Lemma unravel s k : (forall n, In n s -> 0 <= n) -> 0 <= k < nd_size s -> exists idx, inside s idx = true /\ ravel s idx = k.
Proof.
  intros HN. revert k. induction s as [|n s IH]; intros k Hk; cbn [nd_size] in *; [exists []; split; [reflexivity|cbn; lia]|].
  assert (Hs : forall m, In m s -> 0 <= m) by (intros; apply HN; now right). pose proof (size_nonneg s Hs) as S0.
  assert (S1 : 0 < nd_size s) by (destruct (Z.eq_dec (nd_size s) 0) as [E0|]; [rewrite E0, Z.mul_0_r in Hk|]; lia). destruct (IH Hs (k mod nd_size s)) as [idx [H1 H2]]; [now apply Z.mod_pos_bound|].
  exists (k / nd_size s :: idx). split.
  - apply inside_cons. split; [|assumption]. split; [apply Z.div_pos; lia|]. apply Z.div_lt_upper_bound; lia.
  - cbn [ravel]. rewrite H2. rewrite (Z.div_mod k (nd_size s)) at 3 by lia. ring.
Qed.
Lemma nd_ext {A} (a b : nd A) : wf a -> wf b -> nshape a = nshape b ->
  (forall idx, inside (nshape a) idx = true -> nget a idx = nget b idx) -> a = b.
Proof.
  intros [H L] [H' L'] E HE. destruct a as [s d], b as [s' d']. cbn [nshape ndata] in *. subst s'. f_equal.
  apply Znth_ext; [lia|]. intros k Hk. destruct (unravel s k H) as [idx [I R]]; [lia|]. specialize (HE idx I). unfold nget in HE. cbn [nshape ndata] in HE.
  rewrite I, R in HE. exact HE.
Qed.
Lemma nany_true a : wf a -> (nany a = true <-> exists idx, nget a idx = Some true).
Proof.
  intros [H L]. unfold nany. rewrite existsb_exists. split.
  - intros [b [Hb E]]. subst b. apply In_Znth in Hb. destruct Hb as [k [Hk E]]. destruct (unravel (nshape a) k H) as [idx [I R]]; [lia|].
    exists idx. unfold nget. now rewrite I, R.
  - intros [idx E]. exists true. split; [|reflexivity]. unfold nget in E. destruct (inside _ _); [|discriminate]. now apply Znth_In in E.
Qed.
Lemma nmap_nmap {A B C} (f : B -> C) (g : A -> B) a : nmap f (nmap g a) = nmap (fun x => f (g x)) a.
Proof. unfold nmap. cbn [nshape ndata]. now rewrite map_map. Qed.
