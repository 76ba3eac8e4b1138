(** C75: graphs of k nearest neighbours, one sample. *)
From Coq Require Import String Sorted.
From Verif Require Import Np NpFacts Fl FlFacts DiagModel DiagProofs ValidModel ValidSpec ValidThms CurveThms2 MplotThms5 GraphModel KnnModel KnnSpec.
Open Scope Z_scope.

(** ** Lists *)
Lemma mapi_tabZ {A B} (f : Z -> A -> B) n g : 0 <= n -> mapi f (tabZ n g) = tabZ n (fun i => f i (g i)).
Proof.
  intros Hn. apply Znth_ext; [rewrite zlen_mapi, !zlen_tabZ by assumption; reflexivity|].
  intros i Hi. rewrite zlen_mapi, zlen_tabZ in Hi by assumption. rewrite Znth_mapi, !Znth_tabZ by assumption. reflexivity.
Qed.
Lemma mapM_tabZ {A B} (f : A -> res B) n g h : (forall i, 0 <= i < n -> f (g i) = Ok (h i)) -> mapM f (tabZ n g) = Ok (tabZ n h).
Proof. intros H. rewrite !tabZ_arange, mapM_map. apply mapM_Ok. intros i Hi. apply H. now apply In_arange. Qed.
Lemma mapM_nth {A B} (f : A -> res B) l h : (forall i x, Znth l i = Some x -> f x = Ok (h i)) -> mapM f l = Ok (tabZ (zlen l) h).
Proof.
  intros H. apply mapM_iff. apply Forall2_of_Znth; [rewrite zlen_tabZ; [reflexivity|apply zlen_nonneg]|].
  intros i a b Ea Eb. pose proof (Znth_Some_lt _ _ _ Ea) as Hi. rewrite Znth_tabZ in Eb by assumption. injection Eb as <-. now apply H.
Qed.
Lemma In_concat_tabZ {A} n (F : Z -> list A) x : In x (concat (tabZ n F)) <-> exists i, 0 <= i < n /\ In x (F i).
Proof.
  rewrite in_concat. split.
  - intros [l [H I]]. apply In_tabZ in H. destruct H as [i [Hi <-]]. eauto.
  - intros [i [Hi I]]. exists (F i). split; [apply In_tabZ; eauto|assumption].
Qed.
Lemma concat_map_single {A B} (F : A -> list B) l x : NoDup l -> In x l -> (forall y, In y l -> y <> x -> F y = []) -> concat (map F l) = F x.
Proof.
  induction l as [|y l IH]; intros N I H; [destruct I|]. inversion N as [|? ? Ny Nl]; subst. cbn [map concat]. destruct I as [->|I].
  - assert (E : concat (map F l) = []).
    { clear IH Nl. assert (Q : forall z, In z l -> F z = []) by (intros z Hz; apply H; [now right|]; intros ->; contradiction). clear H Ny N. induction l as [|z l IH']; [reflexivity|]. cbn [map concat]. rewrite (Q z) by now left. apply IH'. intros u Hu. apply Q. now right. }
    now rewrite E, app_nil_r.
  - rewrite (H y); [|now left|intros ->; contradiction]. cbn [app]. apply IH; try assumption. intros z Hz. apply H. now right.
Qed.
Lemma sorted_concat {A} (key : A -> Z) (F : Z -> list A) l : StronglySorted Z.lt l -> (forall i x, In x (F i) -> key x = i) ->
  StronglySorted (fun a b => key a <= key b) (concat (map F l)).
Proof.
  intros S H. induction S as [|i l S IH L]; [constructor|]. cbn [map concat].
  assert (Q : forall x y, In x (F i) -> In y (concat (map F l)) -> key x <= key y).
  { intros x y Hx Hy. apply in_concat in Hy. destruct Hy as [m [Hm Hy]]. apply in_map_iff in Hm. destruct Hm as [i' [<- Hi']]. rewrite (H _ _ Hx), (H _ _ Hy). rewrite Forall_forall in L. specialize (L _ Hi'). lia. }
  assert (K : forall x, In x (F i) -> key x = i) by (intros; now apply H).
  induction (F i) as [|x f IHf]; [exact IH|]. cbn [app]. constructor.
  - apply IHf; intros; [apply Q; [now right|assumption]|apply K; now right].
  - apply Forall_forall. intros y Hy. apply in_app_or in Hy. destruct Hy as [Hy|Hy]; [pose proof (K x (or_introl eq_refl)); pose proof (K y (or_intror Hy)); lia|apply Q; [now left|assumption]].
Qed.
Lemma arange_sorted n : StronglySorted Z.lt (arange n).
Proof.
  destruct (Z.le_gt_cases n 0) as [L|L]; [unfold arange; rewrite tabZ_nil by assumption; constructor|].
  assert (G : forall k a, StronglySorted Z.lt (map (fun i => a + Z.of_nat i) (seq 0 k))).
  { induction k as [|k IH]; intros a; [constructor|]. cbn [seq map]. constructor.
    - rewrite <- seq_shift, map_map. replace (map _ (seq 0 k)) with (map (fun i => (a + 1) + Z.of_nat i) (seq 0 k)); [apply IH|]. apply map_ext. intros. lia.
    - apply Forall_forall. intros y Hy. apply in_map_iff in Hy. destruct Hy as [i [<- Hi]]. apply in_seq in Hi. lia. }
  specialize (G (Z.to_nat n) 0). replace (arange n) with (map (fun i => 0 + Z.of_nat i) (seq 0 (Z.to_nat n))); [exact G|].
  apply Znth_ext; [rewrite zlen_map, zlen_arange by lia; unfold zlen; rewrite seq_length; lia|]. intros i Hi. rewrite zlen_map in Hi. unfold zlen in Hi. rewrite seq_length in Hi. rewrite Znth_arange by lia. rewrite Znth_map. unfold Znth. destruct (i <? 0) eqn:E; [lia|].
  rewrite (nth_error_nth' _ 0%nat) by (rewrite seq_length; lia). rewrite seq_nth by lia. cbn. f_equal. lia.
Qed.
Lemma NoDup_arange n : NoDup (arange n).
Proof.
  induction (arange_sorted n) as [|x l S IH F]; constructor; [|assumption]. intros I. rewrite Forall_forall in F. specialize (F _ I). lia.
Qed.
Lemma filter_other_length (l : list Z) i : NoDup l -> In i l -> zlen (filter (fun j => negb (j =? i)) l) = zlen l - 1.
Proof.
  intros N I. induction N as [|x l Nx N IH]; [destruct I|]. cbn [filter]. destruct (Z.eqb_spec x i) as [->|D]; cbn [negb].
  - rewrite zlen_cons. assert (E : filter (fun j => negb (j =? i)) l = l).
    { clear - Nx. induction l as [|y l IH]; [reflexivity|]. cbn [filter]. destruct (Z.eqb_spec y i) as [->|_]; [exfalso; apply Nx; now left|]. cbn [negb]. f_equal. apply IH. intros H. apply Nx. now right. }
    rewrite E. lia.
  - destruct I as [->|I]; [contradiction|]. rewrite !zlen_cons, IH by assumption. lia.
Qed.
Lemma zlen_incl {A} (l l' : list A) : NoDup l -> incl l l' -> zlen l <= zlen l'.
Proof. intros N I. pose proof (NoDup_incl_length N I). unfold zlen. lia. Qed.

(** ** The neighbours of one point *)
Lemma drop_self_ok row i k l a : smallest row (k + 1) l -> 1 <= k -> Znth row i = Some a -> (forall j b, Znth row j = Some b -> (a <= b)%Qc) ->
  let l' := drop_self i l in
  zlen l' = k /\ NoDup l' /\ (forall j, In j l' -> 0 <= j < zlen row /\ j <> i) /\
  forall j j' x y, In j l' -> ~ In j' l' -> j' <> i -> Znth row j = Some x -> Znth row j' = Some y -> (x <= y)%Qc.
Proof.
  intros [Hl [N [R S]]] Hk Ea Hm l'. unfold l', drop_self. destruct (existsb (Z.eqb i) l) eqn:E.
  - apply existsb_exists in E. destruct E as [i' [I E]]. apply Z.eqb_eq in E. subst i'. split; [rewrite filter_other_length by assumption; lia|]. split; [now apply NoDup_filter|].
    assert (Q : forall j, In j (filter (fun j => negb (j =? i)) l) <-> In j l /\ j <> i).
    { intros j. rewrite filter_In. split; intros [H1 H2]; (split; [assumption|]); destruct (Z.eqb_spec j i); try discriminate; try reflexivity; try assumption. contradiction. }
    split; [intros j Hj; apply Q in Hj; destruct Hj; split; [now apply R|assumption]|]. intros j j' x y Hj Hj' D Ex Ey. apply Q in Hj. apply (S j j' x y); [apply Hj| |assumption|assumption]. intros H. apply Hj'. now apply Q.
  - assert (NI : ~ In i l). { intros H. assert (existsb (Z.eqb i) l = true); [|congruence]. apply existsb_exists. exists i. split; [assumption|apply Z.eqb_refl]. }
    destruct l as [|x0 t]; [rewrite zlen_nil in Hl; lia|]. cbn [tl]. rewrite zlen_cons in Hl. inversion N as [|? ? N1 N2]; subst. split; [lia|]. split; [assumption|].
    split; [intros j Hj; split; [apply R; now right|intros ->; apply NI; now right]|]. intros j j' x y Hj Hj' D Ex Ey.
    apply Qcle_trans with a; [apply (S j i x a); [now right|assumption|assumption|assumption]|]. now apply (Hm j').
Qed.

Section One.
Context {M : Type}.
Variable dist : string -> Z -> option M -> list fl -> list fl -> res fl.
Variable nearest : list fl -> Z -> list Z.
Variable sparse_graph : string -> Z -> option M -> string -> Z -> ValidModel.arr -> res adj.
Hypothesis nearest_ok : forall row k, 1 <= k <= zlen row -> smallest row k (nearest (map Fin row) k).

Lemma matrix_ok metric p mp c d x n m : holds x c n m -> proper_cloud metric (dist metric p mp) c d ->
  distance_matrix dist metric p mp n m (a_data x) = Ok (tabZ n (fun i => map Fin (tabZ n (d i)))).
Proof using dist. clear nearest_ok sparse_graph nearest.
  intros [K [Sh [Da [Hn Hm]]]] [NE [NR [Fi [Di _]]]]. unfold distance_matrix.
  assert (n1 : 1 <= n). { destruct c; [contradiction|]. rewrite zlen_cons in Hn. pose proof (zlen_nonneg c). lia. }
  assert (m1 : 1 <= m). { destruct c as [|r c]; [contradiction|]. pose proof (NR r (or_introl eq_refl)) as Nr. pose proof (Hm r (or_introl eq_refl)) as Er. destruct r as [|y r]; [contradiction|]. rewrite zlen_cons in Er. pose proof (zlen_nonneg r). lia. }
  replace ((n <? 1) || (m <? 1)) with false by (symmetry; apply orb_false_iff; split; apply Z.ltb_ge; lia).
  assert (FA : forallb isfin (a_data x) = true).
  { rewrite Da. apply forallb_forall. intros y Hy. apply in_concat in Hy. destruct Hy as [r [Hr Hy]]. destruct (Fi r y Hr Hy) as [q ->]. reflexivity. }
  rewrite FA. cbn [negb]. rewrite Da, np_reshape_concat; [|symmetry; assumption|assumption|lia]. cbn [bind].
  destruct Di as [Nm Hd|Em Sq Hd].
  - rewrite (proj2 (String.eqb_neq _ _) Nm). rewrite <- Hn. apply mapM_nth. intros i a Ea. rewrite tabZ_map. apply mapM_nth. intros j b Eb. now apply Hd.
  - subst metric. rewrite String.eqb_refl. assert (n = m).
    { destruct (Znth_ex c 0 ltac:(lia)) as [r Er]. rewrite <- (Hm r) by now apply Znth_In in Er. rewrite (Sq _ _ Er). congruence. }
    subst m. rewrite Z.eqb_refl. cbn [negb]. assert (P : forallb (fle f0) (concat c) = true).
    { apply forallb_forall. intros y Hy. apply in_concat in Hy. destruct Hy as [r [Hr Hy]]. apply In_Znth in Hr. destruct Hr as [i [_ Ei]]. apply In_Znth in Hy. destruct Hy as [j [_ Ej]]. destruct (Hd i j r y Ei Ej) as [-> H]. unfold fle, f0. unfold Qcleb. apply Qle_bool_iff. exact H. }
    rewrite P. cbn [negb]. f_equal. apply Znth_ext; [rewrite zlen_tabZ by lia; assumption|]. intros i Hi. rewrite Hn in Hi. rewrite Znth_tabZ by assumption. destruct (Znth_ex c i ltac:(lia)) as [r Er]. rewrite Er. f_equal. rewrite tabZ_map.
    pose proof (Sq _ _ Er) as Lr. apply Znth_ext; [rewrite zlen_tabZ by lia; lia|]. intros j Hj. rewrite Znth_tabZ by lia. destruct (Znth_ex r j ltac:(lia)) as [y Ey]. rewrite Ey. f_equal. now apply (Hd i j r y).
Qed.

Definition neighbors_of (n k : Z) (d : Z -> Z -> Qc) (i : Z) : list Z := drop_self i (nearest (map Fin (tabZ n (d i))) (k + 1)).
Lemma neighbors_ok n k d i : 1 <= k < n -> 0 <= i < n -> (forall j, 0 <= j < n -> (d i i <= d i j)%Qc) ->
  let l := neighbors_of n k d i in
  zlen l = k /\ NoDup l /\ (forall j, In j l -> 0 <= j < n /\ j <> i) /\
  forall j j', In j l -> 0 <= j' < n -> ~ In j' l -> j' <> i -> (d i j <= d i j')%Qc.
Proof.
  intros Hk Hi Hm l. assert (S : smallest (tabZ n (d i)) (k + 1) (nearest (map Fin (tabZ n (d i))) (k + 1))) by (apply nearest_ok; rewrite zlen_tabZ by lia; lia).
  destruct (drop_self_ok _ i k _ (d i i) S ltac:(lia)) as [H1 [H2 [H3 H4]]].
  { now apply Znth_tabZ. }
  { intros j b E. pose proof (Znth_Some_lt _ _ _ E) as B. rewrite zlen_tabZ in B by lia. rewrite Znth_tabZ in E by lia. injection E as <-. now apply Hm. }
  fold (neighbors_of n k d i) in H1, H2, H3, H4. fold l in H1, H2, H3, H4. split; [assumption|]. split; [assumption|]. split; [intros j Hj; specialize (H3 j Hj); rewrite zlen_tabZ in H3 by lia; assumption|].
  intros j j' Hj Hj' NI D. apply (H4 j j'); try assumption; apply Znth_tabZ; [|assumption]. specialize (H3 j Hj). rewrite zlen_tabZ in H3 by lia. apply H3.
Qed.

Lemma graph_ok n k d w L : 0 <= n -> (forall i, 0 <= i < n -> zlen (L i) = k /\ NoDup (L i) /\ (forall j, In j (L i) -> 0 <= j < n /\ j <> i) /\
    forall j j', In j (L i) -> 0 <= j' < n -> ~ In j' (L i) -> j' <> i -> (d i j <= d i j')%Qc) ->
  knn_graph n k d w (Sparse n n (concat (tabZ n (fun i => map (fun j => (i, j, Fin (w i j))) (L i))))).
Proof.
  intros Hn H. eexists. split; [reflexivity|].
  assert (Q : forall i j x, In (i, j, x) (concat (tabZ n (fun i => map (fun j => (i, j, Fin (w i j))) (L i)))) <-> 0 <= i < n /\ In j (L i) /\ x = Fin (w i j)).
  { intros i j x. rewrite In_concat_tabZ. split.
    - intros [i' [Hi I]]. apply in_map_iff in I. destruct I as [j' [[= <- <- <-] I]]. auto.
    - intros [Hi [I ->]]. exists i. split; [assumption|]. apply in_map_iff. eauto. }
  split; [intros i j x I; apply Q in I; destruct I as [Hi [I ->]]; destruct (H i Hi) as [_ [_ [H3 _]]]; destruct (H3 j I); auto|].
  split.
  { intros i Hi. assert (E : targets (concat (tabZ n (fun i => map (fun j => (i, j, Fin (w i j))) (L i)))) i = L i).
    { unfold targets. rewrite filter_concat, tabZ_map, tabZ_arange.
      rewrite (concat_map_single _ _ i); [|apply NoDup_arange|now apply In_arange|].
      - rewrite <- (map_id (L i)) at 2. induction (L i) as [|j l IH]; [reflexivity|]. cbn [map filter fst snd]. rewrite Z.eqb_refl. cbn [map fst snd]. now rewrite IH.
      - intros y _ D. induction (L y) as [|j l IH]; [reflexivity|]. cbn [map filter fst snd]. rewrite (proj2 (Z.eqb_neq _ _) D). exact IH. }
    rewrite E. destruct (H i Hi) as [H1 [H2 _]]. auto. }
  split.
  - intros i j j' x I Hj' D N. apply Q in I. destruct I as [Hi [I ->]]. destruct (H i Hi) as [_ [_ [_ H4]]]. apply H4; try assumption. intros I'. apply (N (Fin (w i j'))). apply Q. auto.
  - rewrite tabZ_arange. apply (sorted_concat (fun e : Z * Z * fl => fst (fst e))); [apply arange_sorted|]. intros i x I. apply in_map_iff in I. destruct I as [j [<- _]]. reflexivity.
Qed.

(** One cloud: the graph, or a ValueError. *)
Lemma one_ok metric p mp md k c d x n m : holds x c n m -> proper_cloud metric (dist metric p mp) c d ->
  1 <= k < zlen c -> md = "connectivity"%string \/ md = "distance"%string ->
  exists g, kneighbors_graph dist nearest sparse_graph metric p mp md k x = Ok g /\
    knn_graph (zlen c) k d (fun i j => if String.eqb md "connectivity" then 1%Qc else d i j) g.
Proof.
  intros Hx Hc Hk Hmd. pose proof (matrix_ok _ _ _ _ _ _ _ _ Hx Hc) as EM. destruct Hx as [K [Sh [Da [Hn Hm]]]]. unfold kneighbors_graph. rewrite K, Sh. destruct (Z.leb_spec k 0) as [L|L]; [lia|]. rewrite EM. cbn [bind]. clear EM. subst n.
  set (n := zlen c) in *. assert (EK : kneighbors nearest (tabZ n (fun i => map Fin (tabZ n (d i)))) k = Ok (tabZ n (neighbors_of n k d))).
  { unfold kneighbors. rewrite zlen_tabZ by lia. destruct (Z.ltb_spec n (k + 1)) as [L'|L']; [lia|]. f_equal. rewrite mapi_tabZ by lia. reflexivity. }
  rewrite EK. cbn [bind]. assert (HL : forall i, 0 <= i < n -> zlen (neighbors_of n k d i) = k /\ NoDup (neighbors_of n k d i) /\ (forall j, In j (neighbors_of n k d i) -> 0 <= j < n /\ j <> i) /\
    forall j j', In j (neighbors_of n k d i) -> 0 <= j' < n -> ~ In j' (neighbors_of n k d i) -> j' <> i -> (d i j <= d i j')%Qc).
  { intros i Hi. apply neighbors_ok; [assumption|assumption|]. intros j Hj. destruct Hc as [_ [_ [_ [_ H]]]]. now apply H. }
  destruct Hmd as [->| ->]; cbn [String.eqb Ascii.eqb Bool.eqb].
  - eexists. split; [reflexivity|]. rewrite mapi_tabZ by lia. exact (graph_ok n k d (fun _ _ => 1%Qc) (neighbors_of n k d) ltac:(lia) HL).
  - rewrite mapi_tabZ by lia. rewrite (mapM_tabZ _ n _ (fun i => map (fun j => (i, j, Fin (d i j))) (neighbors_of n k d i))).
    + cbn [bind]. eexists. split; [reflexivity|]. apply graph_ok; [lia|exact HL].
    + intros i Hi. cbn [fst snd]. rewrite (py_get_in _ i (map Fin (tabZ n (d i)))) by (rewrite ?zlen_tabZ by lia; try lia; now apply (Znth_tabZ n (fun i => map Fin (tabZ n (d i))))). cbn [bind]. apply mapM_Ok. intros j Hj. destruct (HL i Hi) as [_ [_ [H3 _]]]. destruct (H3 j Hj) as [Bj _].
      rewrite tabZ_map. rewrite (py_get_in _ j (Fin (d i j))) by (rewrite ?zlen_tabZ by lia; try lia; now apply (Znth_tabZ n (fun j => Fin (d i j)))). reflexivity.
Qed.
Lemma one_err metric p mp md k c d x n m : holds x c n m -> proper_cloud metric (dist metric p mp) c d ->
  ~ (1 <= k < zlen c /\ (md = "connectivity"%string \/ md = "distance"%string)) ->
  kneighbors_graph dist nearest sparse_graph metric p mp md k x = Err ValueError.
Proof using dist nearest sparse_graph. clear nearest_ok.
  intros Hx Hc Hb. pose proof (matrix_ok _ _ _ _ _ _ _ _ Hx Hc) as EM. destruct Hx as [K [Sh [Da [Hn Hm]]]]. unfold kneighbors_graph. rewrite K, Sh. destruct (Z.leb_spec k 0) as [L|L]; [reflexivity|]. rewrite EM. cbn [bind].
  unfold kneighbors. rewrite zlen_tabZ by (rewrite <- Hn; apply zlen_nonneg). destruct (String.eqb_spec md "connectivity") as [E|E]; [|destruct (String.eqb_spec md "distance") as [E'|E']; [|reflexivity]].
  - destruct (Z.ltb_spec n (k + 1)); [reflexivity|]. exfalso. apply Hb. split; [lia|now left].
  - destruct (Z.ltb_spec n (k + 1)); [reflexivity|]. exfalso. apply Hb. split; [lia|now right].
Qed.
End One.
