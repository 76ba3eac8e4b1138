(** Proofs about Nerve: contraction of nodes. *)
From Coq Require Import Sorted Permutation.
From Verif Require Import Np NpFacts CoverProofs MapperModel MapperSpec MapperProofs MapperProofs2.
Open Scope Z_scope.

(** ** The mapping *)
Definition write_of (t : (Z * gnode) * (Z * gnode)) : list (Z * Z) :=
  let '((i, (_, el1)), (j, (_, el2))) := t in
  let inter := intersect1d el1 el2 in
  if zlen inter =? 0 then [] else
  if zlen inter =? zlen el2 then [(j, i)] else
  if zlen inter =? zlen el1 then [(i, j)] else [].
Definition do_writes (ws : list (Z * Z)) (m : list Z) : list Z :=
  fold_left (fun m w => set_at m (fst w) (snd w)) ws m.
Lemma fold_writes mi store : forall ts es m,
  snd (fold_left (edge_step mi store true) ts (es, m)) = do_writes (flat_map write_of ts) m.
Proof.
  induction ts as [|[[i [k1 el1]] [j [k2 el2]]] ts IH]; intros es m; cbn [fold_left flat_map]; [reflexivity|].
  cbn [edge_step write_of]. set (inter := intersect1d el1 el2). cbn [fst snd].
  destruct (zlen inter =? 0); [apply IH|].
  destruct (zlen inter =? zlen el2); [rewrite IH; reflexivity|].
  destruct (zlen inter =? zlen el1); [rewrite IH; reflexivity|]. apply IH.
Qed.
Lemma do_writes_len : forall ws m, zlen (do_writes ws m) = zlen m.
Proof. induction ws as [|w ws IH]; intros m; [reflexivity|]. cbn. change (zlen (do_writes ws (set_at m (fst w) (snd w))) = zlen m). now rewrite IH, zlen_set_at. Qed.
Lemma do_writes_spec : forall ws m x v, Znth m x = Some v ->
  exists y, Znth (do_writes ws m) x = Some y /\
    (In (x, y) ws \/ (y = v /\ forall z, ~ In (x, z) ws)).
Proof.
  induction ws as [|[a b] ws IH]; intros m x v E.
  - exists v. split; [exact E|]. right. split; [reflexivity|intros z []].
  - change (do_writes ((a, b) :: ws) m) with (do_writes ws (set_at m a b)).
    destruct (IH (set_at m a b) x (if x =? a then b else v)) as [y [Ey C]].
    { rewrite Znth_set_at, E. now destruct (x =? a). }
    exists y. split; [exact Ey|]. destruct C as [I|[Hy N]]; [left; now right|].
    destruct (Z.eqb_spec x a) as [->|Ne].
    + left. left. now rewrite Hy.
    + right. split; [assumption|]. intros z [I|I]; [congruence|]. now apply (N z).
Qed.

Lemma inter_len l1 l2 : StronglySorted Z.lt l1 -> StronglySorted Z.lt l2 ->
  (zlen (intersect1d l1 l2) = zlen l2 <-> incl l2 l1) /\ (zlen (intersect1d l1 l2) = zlen l1 <-> incl l1 l2).
Proof.
  intros S1 S2. destruct (intersect1d_common l1 l2) as [S M]. split; split; intros H.
  - intros x Hx. assert (I : incl l2 (intersect1d l1 l2)).
    { apply NoDup_length_incl; [now apply sorted_lt_NoDup|unfold zlen in H; lia|]. intros y Hy. now apply M. }
    now apply M, I.
  - f_equal. apply sorted_lt_unique; auto. intros x. rewrite M. split; [now intros [? ?]|]. intros Hx. split; auto.
  - intros x Hx. assert (I : incl l1 (intersect1d l1 l2)).
    { apply NoDup_length_incl; [now apply sorted_lt_NoDup|unfold zlen in H; lia|]. intros y Hy. now apply M. }
    now apply M, I.
  - f_equal. apply sorted_lt_unique; auto. intros x. rewrite M. split; [now intros [? ?]|]. intros Hx. split; auto.
Qed.
Section Contract.
Variable nodes : list gnode.
Let n := zlen nodes.
Hypothesis good : forall k l, In (k, l) nodes -> l <> [] /\ StronglySorted Z.lt l.
Hypothesis disj : forall i j k1 l1 k2 l2, i <> j -> Znth nodes i = Some (k1, l1) -> Znth nodes j = Some (k2, l2) ->
  fst k1 = fst k2 -> forall s, In s l1 -> ~ In s l2.
Definition E_ (x : Z) : list Z := match Znth nodes x with Some (_, l) => l | None => [] end.
Definition dom (x y : Z) : Prop :=
  0 <= x < n /\ 0 <= y < n /\ x <> y /\ incl (E_ x) (E_ y) /\ (y < x \/ ~ incl (E_ y) (E_ x)).

Lemma zlen_0_nil {A} (l : list A) : zlen l = 0 -> l = [].
Proof. destruct l; [reflexivity|]. rewrite zlen_cons. pose proof (zlen_nonneg l). lia. Qed.
Lemma writes_In x y : In (x, y) (flat_map write_of (pairs nodes)) <-> dom x y.
Proof.
  rewrite in_flat_map. split.
  - intros [[[i [k1 l1]] [j [k2 l2]]] [I W]]. apply pairs_In in I as [Hij [E1 [E2 N]]].
    destruct (good _ _ (Znth_In _ _ _ E1)) as [_ S1]. destruct (good _ _ (Znth_In _ _ _ E2)) as [_ S2].
    destruct (inter_len l1 l2 S1 S2) as [P2 P1]. cbn [write_of] in W.
    pose proof (Znth_Some_lt _ _ _ E1). pose proof (Znth_Some_lt _ _ _ E2).
    destruct (zlen (intersect1d l1 l2) =? 0); [easy|].
    destruct (Z.eqb_spec (zlen (intersect1d l1 l2)) (zlen l2)) as [E|NE]; [|destruct (Z.eqb_spec (zlen (intersect1d l1 l2)) (zlen l1)) as [E|NE']; [|easy]].
    + destruct W as [W|[]]. injection W as <- <-. unfold dom, E_, n. rewrite E1, E2. repeat split; try lia. now apply P2.
    + destruct W as [W|[]]. injection W as <- <-. unfold dom, E_, n. rewrite E1, E2. repeat split; try lia; [now apply P1|].
      right. intros C. now apply NE, P2.
  - intros [Hx [Hy [NE [I C]]]]. destruct (Znth_ex nodes x Hx) as [[k1 l1] E1]. destruct (Znth_ex nodes y Hy) as [[k2 l2] E2].
    unfold E_ in *. rewrite E1, E2 in *.
    destruct (good _ _ (Znth_In _ _ _ E1)) as [NN1 S1]. destruct (good _ _ (Znth_In _ _ _ E2)) as [NN2 S2].
    destruct l1 as [|a l1]; [easy|].
    assert (Np : fst k1 <> fst k2).
    { intros E. apply (disj x y _ _ _ _ NE E1 E2 E a); [now left|]. apply I. now left. }
    destruct (Z.lt_ge_cases x y) as [L|L].
    + exists ((x, (k1, a :: l1)), (y, (k2, l2))). split; [apply pairs_In; repeat split; auto; lia|]. cbn [write_of].
      destruct (inter_len (a :: l1) l2 S1 S2) as [P2 P1].
      assert (Z0 : zlen (intersect1d (a :: l1) l2) = zlen (a :: l1)) by now apply P1.
      rewrite (proj2 (Z.eqb_neq _ 0)) by (rewrite Z0, zlen_cons; pose proof (zlen_nonneg l1); lia).
      rewrite (proj2 (Z.eqb_neq _ (zlen l2))) by (intros Q; apply P2 in Q; destruct C; [lia|contradiction]).
      rewrite (proj2 (Z.eqb_eq _ _) Z0). now left.
    + exists ((y, (k2, l2)), (x, (k1, a :: l1))). split; [apply pairs_In; repeat split; auto; lia|]. cbn [write_of].
      destruct (inter_len l2 (a :: l1) S2 S1) as [P2 P1].
      assert (Z0 : zlen (intersect1d l2 (a :: l1)) = zlen (a :: l1)) by now apply P2.
      rewrite (proj2 (Z.eqb_neq _ 0)) by (rewrite Z0, zlen_cons; pose proof (zlen_nonneg l1); lia).
      rewrite (proj2 (Z.eqb_eq _ _) Z0). now left.
Qed.
Variables (mi : Z) (store : bool).
Let m := snd (generate_edge_data mi store true nodes).
Lemma m_len : zlen m = n.
Proof.
  unfold m, generate_edge_data. cbv zeta. rewrite fold_writes, do_writes_len, zlen_arange by apply zlen_nonneg. reflexivity.
Qed.
Lemma m_spec x : 0 <= x < n -> (dom x (map_at m x)) \/ (map_at m x = x /\ forall y, ~ dom x y).
Proof.
  intros Hx. destruct (do_writes_spec (flat_map write_of (pairs nodes)) (arange n) x x (Znth_arange _ _ Hx)) as [y [Ey C]].
  assert (E : map_at m x = y).
  { unfold m, generate_edge_data, map_at. cbv zeta. rewrite fold_writes. fold (pairs nodes). fold n. now rewrite Ey. }
  rewrite E. destruct C as [I|[-> N]].
  - left. now apply writes_In.
  - right. split; [reflexivity|]. intros y D. apply writes_In in D. now apply (N y).
Qed.
(** A strictly increasing measure *)
Lemma sorted_len_incl l l' : StronglySorted Z.lt l -> StronglySorted Z.lt l' -> incl l l' -> zlen l <= zlen l' /\ (zlen l = zlen l' -> incl l' l).
Proof.
  intros S S' I. split.
  - unfold zlen. apply inj_le, NoDup_incl_length; [now apply sorted_lt_NoDup|assumption].
  - intros E. apply NoDup_length_incl; [now apply sorted_lt_NoDup|unfold zlen in E; lia|assumption].
Qed.
Lemma E_sorted x : StronglySorted Z.lt (E_ x).
Proof.
  unfold E_. destruct (Znth nodes x) as [[k l]|] eqn:E; [|constructor]. now apply (good k l), Znth_In with x.
Qed.
Definition key (x : Z) : Z := zlen (E_ x) * n + (n - x).
Lemma dom_key x y : dom x y -> key x < key y.
Proof.
  intros [Hx [Hy [NE [I C]]]]. destruct (sorted_len_incl _ _ (E_sorted x) (E_sorted y) I) as [L Eq]. unfold key.
  destruct (Z.eq_dec (zlen (E_ x)) (zlen (E_ y))) as [E|N].
  - rewrite E. destruct C as [C|C]; [lia|]. now destruct C; apply Eq.
  - assert (zlen (E_ x) + 1 <= zlen (E_ y)) by lia. nia.
Qed.
Definition above_ (x : Z) : nat := length (filter (fun y => key x <? key y) (arange n)).
Lemma filter_le {A} (f g : A -> bool) l : (forall x, g x = true -> f x = true) -> (length (filter g l) <= length (filter f l))%nat.
Proof.
  intros H. induction l as [|a l IH]; cbn; [lia|]. destruct (g a) eqn:G; [rewrite (H _ G); cbn; lia|]. destruct (f a); cbn; lia.
Qed.
Lemma filter_lt {A} (f g : A -> bool) l a : (forall x, g x = true -> f x = true) -> In a l -> f a = true -> g a = false ->
  (length (filter g l) < length (filter f l))%nat.
Proof.
  intros H. induction l as [|b l IH]; cbn; [intros []|]. intros [->|I] Fa Ga.
  - rewrite Fa, Ga. cbn. pose proof (filter_le f g l H). lia.
  - specialize (IH I Fa Ga). destruct (g b) eqn:G; [rewrite (H _ G); cbn; lia|]. destruct (f b); cbn; lia.
Qed.
Lemma above_dom x y : dom x y -> (above_ y < above_ x)%nat.
Proof.
  intros D. pose proof (dom_key x y D) as K. unfold above_. apply filter_lt with (a := y).
  - intros z. rewrite !Z.ltb_lt. lia.
  - apply In_arange. apply D.
  - now apply Z.ltb_lt.
  - apply Z.ltb_irrefl.
Qed.
Definition kept (x : Z) : Prop := 0 <= x < n /\ forall y, ~ dom x y.
Lemma kept_fix x : kept x -> map_at m x = x.
Proof. intros [Hx N]. destruct (m_spec x Hx) as [D|[E _]]; [now apply N in D|assumption]. Qed.
Lemma m_range x : 0 <= x < n -> 0 <= map_at m x < n.
Proof. intros Hx. destruct (m_spec x Hx) as [D|[-> _]]; [apply D|assumption]. Qed.
Lemma m2_fix x : 0 <= x < n -> map_at m (map_at m x) = x -> kept x.
Proof.
  intros Hx E. destruct (m_spec x Hx) as [D|[_ N]]; [|now split].
  exfalso. pose proof (dom_key _ _ D). destruct (m_spec _ (m_range x Hx)) as [D'|[E' _]].
  - apply dom_key in D'. rewrite E in D'. lia.
  - rewrite E' in E. rewrite E in *. lia.
Qed.
Lemma dom_incl x y : dom x y -> incl (E_ x) (E_ y).
Proof. intros D. apply D. Qed.
Lemma loop_ok : forall fuel t nxt, 0 <= t < n -> (above_ t <= fuel)%nat -> (nxt = t -> kept t) -> (kept t -> nxt = t) ->
  exists r, limit_loop fuel m t nxt = Some r /\ kept r /\ incl (E_ t) (E_ r).
Proof.
  induction fuel as [|fuel IH]; intros t nxt Ht F C1 C2; cbn [limit_loop].
  - destruct (Z.eqb_spec t nxt) as [->|N].
    + exists nxt. split; [reflexivity|]. split; [now apply C1|apply incl_refl].
    + exfalso. destruct (m_spec t Ht) as [D|[_ Nd]].
      * apply above_dom in D. lia.
      * apply N. symmetry. apply C2. now split.
  - destruct (Z.eqb_spec t nxt) as [->|N].
    + exists nxt. split; [reflexivity|]. split; [now apply C1|apply incl_refl].
    + destruct (m_spec t Ht) as [D|[_ Nd]]; [|exfalso; apply N; symmetry; apply C2; now split].
      pose proof (above_dom _ _ D).
      destruct (IH (map_at m t) (map_at m (map_at m (map_at m t)))) as [r [Er [K I]]].
      * now apply m_range.
      * lia.
      * intros E. apply m2_fix; [now apply m_range|assumption].
      * intros K. now rewrite (kept_fix _ K), (kept_fix _ K).
      * exists r. split; [exact Er|]. split; [exact K|]. eapply incl_tran; [apply dom_incl, D|exact I].
Qed.
Lemma all_some_map {A} (l : list (option A)) : (forall x, In x l -> exists y, x = Some y) ->
  exists r, all_some l = Some r /\ l = map Some r.
Proof.
  induction l as [|x l IH]; intros H; [exists []; auto|]. destruct (H x (or_introl eq_refl)) as [y ->].
  destruct IH as [r [E ->]]; [intros; apply H; now right|]. exists (y :: r). cbn. now rewrite E.
Qed.
Lemma loop_kept fuel t : kept t -> limit_loop fuel m t (map_at m t) = Some t.
Proof. intros K. rewrite (kept_fix _ K). destruct fuel; cbn; now rewrite Z.eqb_refl. Qed.
Lemma limit_mapping_ok : exists lm, limit_mapping m = Some lm /\ zlen lm = n /\
  (forall x, 0 <= x < n -> kept (map_at lm x) /\ incl (E_ x) (E_ (map_at lm x))) /\
  (forall x, kept x -> map_at lm x = x).
Proof.
  unfold limit_mapping.
  assert (H : forall x v, Znth m x = Some v -> exists r, limit_loop (S (length m)) m x v = Some r /\ kept r /\ incl (E_ x) (E_ r) /\ (kept x -> r = x)).
  { intros x v E. assert (Hx : 0 <= x < n). { rewrite <- m_len. now apply Znth_Some_lt in E. }
    assert (v = map_at m x) as ->. { unfold map_at. now rewrite E. }
    destruct (loop_ok (S (length m)) x (map_at m x) Hx) as [r [Er [K I]]].
    - assert (above_ x <= length m)%nat; [|lia]. unfold above_.
      transitivity (length (filter (fun _ => true) (arange n))); [now apply filter_le|].
      assert (FT : forall l : list Z, filter (fun _ => true) l = l) by (induction l; cbn; congruence).
      rewrite FT. pose proof m_len as L. unfold zlen in L.
      pose proof (zlen_arange n (zlen_nonneg _)) as L'. unfold zlen in L'. lia.
    - intros Em. split; [assumption|]. destruct (m_spec x Hx) as [D|[_ N]]; [|assumption]. destruct D as [_ [_ [NE _]]]. lia.
    - apply kept_fix.
    - exists r. repeat split; auto; try apply K. intros Kx. rewrite loop_kept in Er by assumption. congruence. }
  destruct (all_some_map (mapi (fun i t => limit_loop (S (length m)) m i t) m)) as [lm [-> Em]].
  { intros o I. apply In_Znth in I as [i [Hi E]]. rewrite Znth_mapi in E. destruct (Znth m i) as [v|] eqn:Ev; [|discriminate].
    cbn [option_map] in E. assert (limit_loop (S (length m)) m i v = o) as <- by congruence. destruct (H i v Ev) as [r [-> _]]. eauto. }
  exists lm. split; [reflexivity|].
  assert (L : zlen lm = n). { rewrite <- (zlen_map Some), <- Em, zlen_mapi. apply m_len. }
  assert (P : forall x, 0 <= x < n -> exists v, Znth m x = Some v /\ limit_loop (S (length m)) m x v = Some (map_at lm x)).
  { intros x Hx. destruct (Znth_ex m x) as [v Ev]; [rewrite m_len; exact Hx|]. exists v. split; [assumption|].
    destruct (Znth_ex lm x) as [r Er]; [rewrite L; exact Hx|]. unfold map_at at 1. rewrite Er.
    assert (Er' : Znth (mapi (fun i t => limit_loop (S (length m)) m i t) m) x = Some (Some r)).
    { rewrite Em, Znth_map, Er. reflexivity. }
    rewrite Znth_mapi, Ev in Er'. cbn [option_map] in Er'. congruence. }
  split; [assumption|]. split.
  - intros x Hx. destruct (P x Hx) as [v [Ev El]]. destruct (H x v Ev) as [r [Er [K [I _]]]].
    rewrite El in Er. injection Er as ->. auto.
  - intros x Kx. destruct (P x (proj1 Kx)) as [v [Ev El]]. destruct (H x v Ev) as [r [Er [_ [_ Kr]]]].
    rewrite El in Er. injection Er as ->. auto.
Qed.
(** Kept nodes: no other node contains them, except equal ones that come later. *)
Lemma kept_spec x : kept x <-> 0 <= x < n /\ forall y, 0 <= y < n -> y <> x -> incl (E_ x) (E_ y) -> x < y /\ incl (E_ y) (E_ x).
Proof.
  assert (ID : forall l l' : list Z, {incl l l'} + {~ incl l l'}) .
  { induction l as [|a l IH]; intros l'; [left; intros ? []|]. destruct (in_dec Z.eq_dec a l'); [|right; intros C; apply n0, C; now left].
    destruct (IH l') as [I|I]; [left; now apply incl_cons|right; intros C; apply I; intros z Hz; apply C; now right]. }
  split; intros [Hx H]; (split; [assumption|]).
  - intros y Hy NE I. destruct (ID (E_ y) (E_ x)) as [J|J].
    + split; [|assumption]. destruct (Z.lt_ge_cases x y); [assumption|]. exfalso. apply (H y). repeat split; auto; lia.
    + exfalso. apply (H y). repeat split; auto; lia.
  - intros y [_ [Hy [NE [I C]]]]. destruct (H y Hy (not_eq_sym NE) I) as [L J]. destruct C; [lia|contradiction].
Qed.
End Contract.

(** ** The contracted graph *)
Lemma zmax_list_le l b : -1 <= b -> (forall x, In x l -> x <= b) -> zmax_list l <= b.
Proof.
  intros Hb H. induction l as [|a l IH]; cbn; [assumption|]. apply Z.max_lub; [apply H; now left|].
  apply IH. intros; apply H; now right.
Qed.
Lemma zmax_list_ge l x : In x l -> x <= zmax_list l.
Proof. induction l as [|a l IH]; [intros []|]. change (zmax_list (a :: l)) with (Z.max a (zmax_list l)). intros [->|I]; [lia|]. specialize (IH I). lia. Qed.
Lemma mapi_tabZ {A} M (f : Z -> A) : 0 <= M -> mapi (fun i v => (i, v)) (tabZ M f) = map (fun i => (i, f i)) (arange M).
Proof.
  intros HM. apply Znth_ext. { now rewrite zlen_mapi, zlen_map, zlen_tabZ, zlen_arange. }
  intros i Hi. rewrite zlen_mapi, zlen_tabZ in Hi by assumption.
  now rewrite Znth_mapi, Znth_map, Znth_tabZ, Znth_arange.
Qed.
Lemma flat_map_keep {A} (keep : Z -> bool) (f : Z -> A) l :
  flat_map (fun iv => if keep (fst iv) then [snd iv] else []) (map (fun i => (i, f i)) l) = map f (filter keep l).
Proof. induction l as [|a l IH]; cbn; [reflexivity|]. destruct (keep a); cbn; now rewrite IH. Qed.
Lemma arange_split M k : 0 <= k < M -> exists rest, arange M = arange k ++ k :: rest.
Proof.
  intros H. exists (tabZ (M - k - 1) (fun i => k + 1 + i)).
  assert (L : zlen (k :: tabZ (M - k - 1) (fun i => k + 1 + i)) = M - k) by (rewrite zlen_cons, zlen_tabZ; lia).
  apply Znth_ext. { rewrite zlen_app, L, !zlen_arange; lia. }
  intros i Hi. rewrite zlen_arange in Hi by lia. rewrite Znth_arange by lia.
  destruct (Z.lt_ge_cases i k).
  - rewrite Znth_app1 by (rewrite zlen_arange; lia). now rewrite Znth_arange by lia.
  - rewrite Znth_app2 by (rewrite zlen_arange; lia). rewrite zlen_arange by lia.
    destruct (Z.eq_dec i k) as [->|]; [now rewrite Z.sub_diag, Znth_0|].
    rewrite Znth_cons, Znth_tabZ by lia. f_equal. lia.
Qed.
Lemma kept_rank_pos keep M k : 0 <= k < M -> keep k = true ->
  Znth (filter keep (arange M)) (kept_rank keep k) = Some k.
Proof.
  intros H K. destruct (arange_split M k H) as [rest ->]. rewrite filter_app. cbn [filter]. rewrite K.
  unfold kept_rank. rewrite Znth_app2 by lia. now rewrite Z.sub_diag, Znth_0.
Qed.
Lemma sorted_arange M : StronglySorted Z.lt (arange M).
Proof.
  destruct (Z.lt_ge_cases M 0). { unfold arange. rewrite tabZ_nil by lia. constructor. }
  pattern M. apply natlike_ind; [constructor| |assumption]. intros x Hx IH. unfold arange in *.
  change (Z.succ x) with (x + 1). rewrite tabZ_S by assumption. apply sorted_app; [assumption|repeat constructor|].
  intros a b Ha [<-|[]]. apply In_tabZ in Ha as [i [Hi <-]]. lia.
Qed.
Lemma first_mapped_ok : forall (nodes : list gnode) (m : list Z) k, zlen nodes = zlen m -> In k m ->
  exists x, 0 <= x /\ first_mapped nodes m k = Znth nodes x /\ Znth m x = Some k /\ forall y, 0 <= y < x -> Znth m y <> Some k.
Proof.
  unfold first_mapped. induction nodes as [|nd nodes IH]; intros [|v m] k L I.
  - destruct I.
  - rewrite zlen_cons in L. change (zlen (@nil gnode)) with 0 in L. pose proof (zlen_nonneg m). lia.
  - destruct I.
  - rewrite !zlen_cons in L. cbn [combine find snd]. destruct (Z.eqb_spec v k) as [->|N].
    + exists 0. rewrite !Znth_0. repeat split; auto; try lia. 
    + destruct I as [->|I]; [contradiction|]. destruct (IH m k ltac:(lia) I) as [x [Hx [E [Ex Mn]]]].
      exists (1 + x). rewrite !Znth_S by assumption. split; [lia|]. split; [assumption|]. split; [assumption|].
      intros y Hy. destruct (Z.eq_dec y 0) as [->|]; [rewrite Znth_0; congruence|].
      rewrite Znth_cons by lia. apply Mn. lia.
Qed.
Lemma Znth_map_at m x v : Znth m x = Some v -> map_at m x = v.
Proof. intros E. unfold map_at. now rewrite E. Qed.

(** Two nodes with the same pullback label are disjoint. *)
Lemma nodes_disj X nodes : refined X -> nodes_of X nodes ->
  forall i j k1 l1 k2 l2, i <> j -> Znth nodes i = Some (k1, l1) -> Znth nodes j = Some (k2, l2) ->
  fst k1 = fst k2 -> forall s, In s l1 -> ~ In s l2.
Proof.
  intros R [Hk H] i j k1 l1 k2 l2 NE E1 E2 F s I1 I2.
  apply (H k1 l1 (Znth_In _ _ _ E1)) in I1. apply (H k2 l2 (Znth_In _ _ _ E2)) in I2.
  destruct I1 as [x [Ex I1]]. destruct I2 as [x' [Ex' I2]]. assert (x' = x) as -> by congruence.
  assert (k1 = k2).
  { specialize (R x (Znth_In _ _ _ Ex)). clear -R I1 I2 F. induction x as [|a x IH]; [destruct I1|].
    cbn in R. inversion R as [|? ? NI R']; subst. destruct I1 as [->|I1], I2 as [->|I2]; auto.
    - exfalso. apply NI. rewrite F. now apply in_map.
    - exfalso. apply NI. rewrite <- F. now apply in_map. }
  subst k2. pose proof (first_occ_NoDup (concat X)) as D. rewrite <- Hk in D.
  assert (Q : forall z k l, Znth nodes z = Some (k, l) -> Znth (map fst nodes) z = Some k) by (intros z k l E; now rewrite Znth_map, E).
  apply Q in E1, E2. apply NE. clear -D E1 E2. unfold Znth in *.
  destruct (i <? 0) eqn:A; [discriminate|]. destruct (j <? 0) eqn:B; [discriminate|].
  apply Z.ltb_ge in A, B. assert (Z.to_nat i = Z.to_nat j); [|lia].
  eapply NoDup_nth_error; eauto. { apply nth_error_Some. congruence. } congruence.
Qed.
Lemma refined_NoDup X : refined X -> forall x, In x X -> NoDup x.
Proof. intros R x I. specialize (R x I). eapply NoDup_map_inv, R. Qed.
