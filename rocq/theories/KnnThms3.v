(** C75: which points are joined; an example; what does not hold. *)
From Coq Require Import String Sorted Permutation.
From Verif Require Import Np NpFacts Fl FlFacts DiagModel DiagProofs ValidModel ValidSpec ValidThms CurveThms2 GraphModel GraphSpec GraphThms2 KnnModel KnnSpec KnnThms KnnThms2.
Open Scope Z_scope.

Lemma edge_targets n k d w g : knn_graph n k d w g -> exists T : Z -> list Z,
  (forall i j, edge g i j <-> 0 <= i < n /\ In j (T i)) /\
  forall i, 0 <= i < n -> NoDup (T i) /\ zlen (T i) = k /\ (forall j, In j (T i) -> 0 <= j < n /\ j <> i) /\
    forall j j', In j (T i) -> ~ In j' (T i) -> 0 <= j' < n -> j' <> i -> (d i j <= d i j')%Qc.
Proof.
  intros [st [-> [H1 [H2 [H3 _]]]]]. exists (targets st).
  assert (Q : forall i j, In j (targets st i) <-> exists x, In (i, j, x) st).
  { intros i j. unfold targets. rewrite in_map_iff. split.
    - intros [[[i' j'] x] [<- I]]. apply filter_In in I. destruct I as [I E]. cbn in *. apply Z.eqb_eq in E. subst. eauto.
    - intros [x I]. exists (i, j, x). split; [reflexivity|]. apply filter_In. split; [assumption|]. cbn. apply Z.eqb_refl. }
  split.
  - intros i j. cbn. rewrite Q. split; [intros [x I]; destruct (H1 i j x I); eauto|tauto].
  - intros i Hi. destruct (H2 i Hi) as [N L]. split; [assumption|]. split; [assumption|]. split.
    + intros j Hj. apply Q in Hj. destruct Hj as [x I]. destruct (H1 i j x I) as [_ [? [? _]]]. auto.
    + intros j j' Hj Hj' B D. apply Q in Hj. destruct Hj as [x I]. apply (H3 i j j' x I B D). intros y I'. apply Hj'. apply Q. eauto.
Qed.
Lemma closer_ex n d i j : exists l, closer n d i j l.
Proof.
  exists (filter (fun j' => negb (j' =? i) && Qcltb (d i j') (d i j)) (arange n)). split; [apply NoDup_filter, NoDup_arange|]. intros j'. rewrite filter_In, andb_true_iff, negb_true_iff, Z.eqb_neq, In_arange. unfold Qcltb. rewrite negb_true_iff.
  split; intros [H1 [H2 H3]]; (split; [assumption|]); (split; [assumption|]).
  - apply Qcnot_le_lt. intros L. unfold Qcle in L. apply Qle_bool_iff in L. congruence.
  - destruct (Qle_bool (d i j) (d i j')) eqn:E; [|reflexivity]. apply Qle_bool_iff in E. exfalso. apply (Qclt_not_le _ _ H3). exact E.
Qed.
(** Fewer than k other points are closer to a point than one it is joined to ... *)
Theorem knn_few_closer n k d w g i j l : knn_graph n k d w g -> edge g i j -> closer n d i j l -> zlen l < k.
Proof.
  intros H E [N C]. destruct (edge_targets _ _ _ _ _ H) as [T [Q HT]]. apply Q in E. destruct E as [Hi I]. destruct (HT i Hi) as [NT [L [R S]]].
  assert (zlen (j :: l) <= zlen (T i)); [|rewrite zlen_cons in *; lia]. apply zlen_incl.
  - constructor; [|assumption]. intros X. apply C in X. destruct X as [_ [_ X]]. revert X. apply Qcle_not_lt. apply Qcle_refl.
  - intros x [<-|X]; [assumption|]. apply C in X. destruct X as [B [D X]]. destruct (in_dec Z.eq_dec x (T i)) as [Y|Y]; [assumption|]. exfalso. specialize (S j x I Y B D). revert X. now apply Qcle_not_lt.
Qed.
(** ... and a point is joined to every other point such that fewer than k of the
    others are as close. *)
Theorem knn_joined n k d w g i j l : knn_graph n k d w g -> 0 <= i < n -> 0 <= j < n -> j <> i ->
  (NoDup l /\ forall j', In j' l <-> 0 <= j' < n /\ j' <> i /\ j' <> j /\ (d i j' <= d i j)%Qc) -> zlen l < k -> edge g i j.
Proof.
  intros H Hi Hj D [N C] Hl. destruct (edge_targets _ _ _ _ _ H) as [T [Q HT]]. apply Q. split; [assumption|]. destruct (in_dec Z.eq_dec j (T i)) as [Y|Y]; [assumption|]. exfalso. destruct (HT i Hi) as [NT [L [R S]]].
  assert (zlen (T i) <= zlen l); [|lia]. apply zlen_incl; [assumption|]. intros x X. apply C. destruct (R x X) as [B1 B2]. split; [assumption|]. split; [assumption|]. split; [intros ->; contradiction|]. now apply S.
Qed.
(** If the distances from a point are different, its neighbours are determined. *)
Theorem knn_distinct n k d w g i j : knn_graph n k d w g -> 0 <= i < n ->
  (forall a b, 0 <= a < n -> 0 <= b < n -> a <> i -> b <> i -> a <> b -> d i a <> d i b) ->
  edge g i j <-> 0 <= j < n /\ j <> i /\ exists l, closer n d i j l /\ zlen l < k.
Proof.
  intros H Hi HD. split.
  - intros E. destruct (edge_targets _ _ _ _ _ H) as [T [Q HT]]. pose proof E as E'. apply Q in E'. destruct E' as [_ I]. destruct (HT i Hi) as [_ [_ [R _]]]. destruct (R j I). split; [assumption|]. split; [assumption|]. destruct (closer_ex n d i j) as [l C]. exists l. split; [assumption|]. eapply knn_few_closer; eassumption.
  - intros [Hj [D [l [[N C] L]]]]. apply (knn_joined n k d w g i j l); try assumption. split; [assumption|]. intros j'. rewrite C. split.
    + intros [B [D' X]]. split; [assumption|]. split; [assumption|]. split; [intros ->; revert X; apply Qcle_not_lt; apply Qcle_refl|now apply Qclt_le_weak].
    + intros [B [D' [D'' X]]]. split; [assumption|]. split; [assumption|]. apply Qcle_lt_or_eq in X. destruct X as [X|X]; [assumption|]. exfalso. now apply (HD j' j).
Qed.
(** Relabelling the points relabels the edges, and only the order of the distances
    matters. *)
Theorem knn_relabel n k d d' w w' g g' (s t : Z -> Z) i j : knn_graph n k d w g -> knn_graph n k d' w' g' ->
  (forall a, 0 <= a < n -> 0 <= s a < n /\ t (s a) = a) -> (forall a, 0 <= a < n -> 0 <= t a < n /\ s (t a) = a) ->
  (forall a b, 0 <= a < n -> 0 <= b < n -> (d i a < d i b)%Qc <-> (d' (s i) (s a) < d' (s i) (s b))%Qc) ->
  (forall a b, 0 <= a < n -> 0 <= b < n -> a <> i -> b <> i -> a <> b -> d i a <> d i b) ->
  0 <= i < n -> 0 <= j < n -> edge g i j <-> edge g' (s i) (s j).
Proof.
  intros H H' Hs Ht Hd HD Hi Hj. rewrite (knn_distinct n k d w g i j H Hi HD).
  assert (HD' : forall a b, 0 <= a < n -> 0 <= b < n -> a <> s i -> b <> s i -> a <> b -> d' (s i) a <> d' (s i) b).
  { intros a b Ba Bb Na Nb Nab E. destruct (Ht a Ba) as [Ta Ea], (Ht b Bb) as [Tb Eb]. apply (HD (t a) (t b)); try assumption; try congruence.
    destruct (Qclt_le_dec (d i (t a)) (d i (t b))) as [L|L]; [apply Hd in L; try assumption; rewrite Ea, Eb, E in L; exfalso; revert L; apply Qcle_not_lt; apply Qcle_refl|].
    apply Qcle_antisym; [|assumption]. destruct (Qclt_le_dec (d i (t b)) (d i (t a))) as [L'|L']; [|assumption]. apply Hd in L'; try assumption. rewrite Ea, Eb, E in L'. exfalso. revert L'. apply Qcle_not_lt. apply Qcle_refl. }
  rewrite (knn_distinct n k d' w' g' (s i) (s j) H' (proj1 (Hs i Hi)) HD'). split.
  - intros [_ [D [l [[N C] L]]]]. split; [apply Hs; assumption|]. split; [intros E; apply D; destruct (Hs i Hi), (Hs j Hj); congruence|]. exists (map s l). split; [split|].
    + apply (NoDup_map_inv t). rewrite map_map. rewrite (map_ext_in _ (fun x => x)); [now rewrite map_id|]. intros x X. apply C in X. apply Hs, X.
    + intros b. rewrite in_map_iff. split.
      * intros [a [<- X]]. apply C in X. destruct X as [Ba [Da X]]. destruct (Hs a Ba) as [B1 B2]. split; [assumption|]. split; [intros E; apply Da; destruct (Hs i Hi); congruence|]. now apply Hd.
      * intros [Bb [Db X]]. destruct (Ht b Bb) as [B1 B2]. exists (t b). split; [assumption|]. apply C. split; [assumption|]. split; [intros E; apply Db; congruence|]. apply Hd; try assumption. now rewrite B2.
    + now rewrite zlen_map.
  - intros [_ [D [l [[N C] L]]]]. split; [assumption|]. split; [intros ->; contradiction|]. exists (map t l). split; [split|].
    + apply (NoDup_map_inv s). rewrite map_map. rewrite (map_ext_in _ (fun x => x)); [now rewrite map_id|]. intros x X. apply C in X. apply Ht, X.
    + intros b. rewrite in_map_iff. split.
      * intros [a [<- X]]. apply C in X. destruct X as [Ba [Da X]]. destruct (Ht a Ba) as [B1 B2]. split; [assumption|]. split; [intros E; apply Da; congruence|]. apply Hd; try assumption. now rewrite B2.
      * intros [Bb [Db X]]. destruct (Hs b Bb) as [B1 B2]. exists (s b). split; [assumption|]. apply C. split; [assumption|]. split; [intros E; apply Db; destruct (Hs i Hi); congruence|]. now apply Hd.
    + now rewrite zlen_map.
Qed.

(** ** A search, and an example *)
Definition val (row : list fl) (j : Z) : fl := match Znth row j with Some x => x | None => NaN end.
Fixpoint ins (row : list fl) (j : Z) (l : list Z) : list Z :=
  match l with [] => [j] | h :: t => if fle (val row j) (val row h) then j :: l else h :: ins row j t end.
Definition ex_nearest (row : list fl) (k : Z) : list Z := firstn (Z.to_nat k) (fold_right (ins row) [] (arange (zlen row))).
Lemma ins_perm row j l : Permutation (ins row j l) (j :: l).
Proof. induction l as [|h t IH]; [reflexivity|]. cbn [ins]. destruct (fle _ _); [reflexivity|]. rewrite IH. apply perm_swap. Qed.
Lemma ins_sorted (row : list Qc) j l : let le := fun a b => forall x y, Znth row a = Some x -> Znth row b = Some y -> (x <= y)%Qc in
  (forall a, In a (j :: l) -> 0 <= a < zlen row) -> StronglySorted le l -> StronglySorted le (ins (map Fin row) j l).
Proof.
  intros le R S. assert (V : forall a b, In a (j :: l) -> In b (j :: l) -> (fle (val (map Fin row) a) (val (map Fin row) b) = true <-> le a b)).
  { intros a b Ia Ib. destruct (Znth_ex row a (R a Ia)) as [x Ex]. destruct (Znth_ex row b (R b Ib)) as [y Ey]. unfold val, le. rewrite !Znth_map, Ex, Ey. cbn [option_map fle]. unfold Qcleb. rewrite Qle_bool_iff. split; [intros H u v [= <-] [= <-]; exact H|intros H; exact (H _ _ eq_refl eq_refl)]. }
  assert (TR : forall a b c, In b (j :: l) -> le a b -> le b c -> le a c).
  { intros a b c Ib H1 H2 x z Ex Ez. destruct (Znth_ex row b (R b Ib)) as [y Ey]. eapply Qcle_trans; [now apply (H1 x y)|now apply (H2 y z)]. }
  assert (TO : forall a b, In a (j :: l) -> In b (j :: l) -> ~ le a b -> le b a).
  { intros a b Ia Ib N x y Ex Ey. destruct (Qclt_le_dec y x) as [L|L]; [|assumption]. exfalso. apply N. intros u v Eu Ev. rewrite Eu in Ey. rewrite Ev in Ex. injection Ey as ->. injection Ex as ->. now apply Qclt_le_weak. }
  induction S as [|h t S IH F]; cbn [ins]; [repeat constructor|]. destruct (fle (val (map Fin row) j) (val (map Fin row) h)) eqn:E.
  - apply V in E; [|now left|right; now left]. constructor; [constructor; assumption|]. constructor; [assumption|]. rewrite Forall_forall in *. intros x X. apply (TR j h x); [right; now left|assumption|now apply F].
  - assert (E' : le h j) by (apply TO; [now left|right; now left|]; intros X; apply V in X; [congruence|now left|right; now left]).
    constructor.
    + apply IH; intros.
      * apply R. destruct H as [<-|H]; [now left|right; now right].
      * apply V; [destruct H as [<-|H]; [now left|right; now right]|destruct H0 as [<-|H0]; [now left|right; now right]].
      * apply (TR a b c); try assumption. destruct H as [<-|H]; [now left|right; now right].
      * apply TO; try assumption; [destruct H as [<-|H]; [now left|right; now right]|destruct H0 as [<-|H0]; [now left|right; now right]].
    + rewrite Forall_forall in *. intros x X. apply (Permutation_in _ (ins_perm _ _ _)) in X. destruct X as [<-|X]; [assumption|now apply F].
Qed.
Lemma ex_nearest_ok row k : 1 <= k <= zlen row -> smallest row k (ex_nearest (map Fin row) k).
Proof.
  intros Hk. unfold ex_nearest. rewrite zlen_map. set (L := fold_right (ins (map Fin row)) [] (arange (zlen row))).
  assert (P : forall l, Permutation (fold_right (ins (map Fin row)) [] l) l) by (induction l as [|x l IH]; [reflexivity|]; cbn [fold_right]; rewrite ins_perm; now constructor).
  assert (PL : Permutation L (arange (zlen row))) by apply P.
  assert (S : StronglySorted (fun a b => forall x y, Znth row a = Some x -> Znth row b = Some y -> (x <= y)%Qc) L).
  { unfold L. assert (Q : forall l, (forall a, In a l -> 0 <= a < zlen row) -> StronglySorted (fun a b => forall x y, Znth row a = Some x -> Znth row b = Some y -> (x <= y)%Qc) (fold_right (ins (map Fin row)) [] l)).
    { induction l as [|j l IH]; intros R; [constructor|]. cbn [fold_right]. apply ins_sorted; [|apply IH; intros a Ha; apply R; now right]. intros a [<-|Ha]; [apply R; now left|]. apply R. right. now apply (Permutation_in _ (P l)). }
    apply Q. intros a Ha. now apply In_arange in Ha. }
  assert (N : NoDup L) by (apply (Permutation_NoDup (Permutation_sym PL)); apply NoDup_arange).
  assert (HL : zlen L = zlen row) by (unfold zlen at 1; rewrite (Permutation_length PL); fold (zlen (arange (zlen row))); apply zlen_arange; apply zlen_nonneg).
  pose proof (firstn_skipn (Z.to_nat k) L) as FS. split; [unfold zlen in *; rewrite firstn_length; lia|]. split.
  { rewrite <- FS in N. clear - N. induction (firstn (Z.to_nat k) L) as [|x l IH]; [constructor|]. cbn [app] in N. inversion N; subst. constructor; [|now apply IH]. intros I. apply H1. apply in_or_app. now left. }
  split.
  - intros j I. apply In_arange. apply (Permutation_in _ PL). rewrite <- FS. apply in_or_app. now left.
  - intros j j' a b I I' Ea Eb. assert (I2 : In j' (skipn (Z.to_nat k) L)).
    { assert (X : In j' L) by (apply (Permutation_in _ (Permutation_sym PL)); apply In_arange; now apply Znth_Some_lt in Eb). rewrite <- FS in X. apply in_app_or in X. destruct X; [contradiction|assumption]. }
    rewrite <- FS in S. clear - S I I2 Ea Eb. induction (firstn (Z.to_nat k) L) as [|x l IH]; [destruct I|]. cbn [app] in S. inversion S as [|? ? S1 F1]; subst. destruct I as [->|I]; [|now apply IH].
    rewrite Forall_forall in F1. apply (F1 j'); try assumption. apply in_or_app. now right.
Qed.
(** Points on the line, at distances of absolute values; k = 2. *)
Definition ex_dist (_ : string) (_ : Z) (_ : option unit) (a b : list fl) : res fl :=
  match a, b with [x], [y] => Ok (fabs (fsub x y)) | _, _ => Err ValueError end.
Definition ex_sparse (_ : string) (_ : Z) (_ : option unit) (_ : string) (_ : Z) (_ : ValidModel.arr) : res adj := Err ValueError.
Definition ex_line : list (list fl) := [[fz 0]; [fz 1]; [fz 3]; [fz 3]].
Definition ex_d (c : list (list fl)) (i j : Z) : Qc :=
  match Znth c i, Znth c j with Some [Fin x], Some [Fin y] => match fabs (fsub (Fin x) (Fin y)) with Fin q => q | _ => 0%Qc end | _, _ => 0%Qc end.
Example ex_cloud : proper_cloud "euclidean" (ex_dist "euclidean" 2 None) ex_line (ex_d ex_line).
Proof.
  split; [discriminate|]. split; [intros r [<-|[<-|[<-|[<-|[]]]]]; discriminate|]. split; [intros r x [<-|[<-|[<-|[<-|[]]]]] [<-|[]]; eexists; reflexivity|]. split.
  - apply distances_metric; [discriminate|]. intros i j a b Ea Eb. unfold ex_d. rewrite Ea, Eb. assert (Q : forall r, In r ex_line -> exists q, r = [Fin q]) by (intros r [<-|[<-|[<-|[<-|[]]]]]; eexists; reflexivity).
    destruct (Q a (Znth_In _ _ _ Ea)) as [x ->], (Q b (Znth_In _ _ _ Eb)) as [y ->]. unfold ex_dist. cbn [fsub fopp fadd fabs]. now destruct (Qcleb _ _).
  - intros i j Hi Hj. cbn in Hi, Hj. assert (I : i = 0 \/ i = 1 \/ i = 2 \/ i = 3) by lia. assert (J : j = 0 \/ j = 1 \/ j = 2 \/ j = 3) by lia.
    unfold Qcle. apply Qle_bool_iff. destruct I as [->|[->|[->| ->]]], J as [->|[->|[->| ->]]]; reflexivity.
Qed.
Example ex_kng : exists e g, kng_fit (kng_init 2 "connectivity" "euclidean" 2 None) (CSeq [MkArr ValidModel.Dense [4; 1] (concat ex_line)]) = Ok e /\
  kng_transform ex_dist ex_nearest ex_sparse e (CSeq [MkArr ValidModel.Dense [4; 1] (concat ex_line)]) = Ok [g] /\
  knn_graph 4 2 (ex_d ex_line) (fun _ _ => 1%Qc) g /\ edge g 2 3 /\ edge g 2 1 /\ ~ edge g 2 0.
Proof.
  destruct (kng_fit (M := unit) (kng_init 2 "connectivity" "euclidean" 2 None) (CSeq [MkArr ValidModel.Dense [4; 1] (concat ex_line)])) as [e|x] eqn:E; [|exfalso; revert E; vm_compute; discriminate]. exists e.
  destruct (kng_spec ex_dist ex_nearest ex_sparse ex_nearest_ok 2 "connectivity" "euclidean" 2 None _ e (CSeq [MkArr ValidModel.Dense [4; 1] (concat ex_line)]) [ex_line] ex_d E) as [gs [ET F]].
  - apply contains_list. constructor; [|constructor]. exists 4, 1. repeat split; try reflexivity. intros r [<-|[<-|[<-|[<-|[]]]]]; reflexivity.
  - discriminate.
  - intros c [<-|[]]. apply ex_cloud.
  - lia.
  - intros c [<-|[]]. reflexivity.
  - now left.
  - inversion F as [|c g cl gl HG F' E1 E2]; subst. inversion F'; subst. exists g. split; [reflexivity|]. split; [exact ET|]. split; [exact HG|].
    assert (EG : match kng_fit (kng_init 2 "connectivity" "euclidean" 2 None) (CSeq [MkArr ValidModel.Dense [4; 1] (concat ex_line)]) with Ok e => kng_transform ex_dist ex_nearest ex_sparse e (CSeq [MkArr ValidModel.Dense [4; 1] (concat ex_line)]) | Err x => Err x end = Ok [Sparse 4 4 [(0, 1, Fin 1%Qc); (0, 2, Fin 1%Qc); (1, 0, Fin 1%Qc); (1, 2, Fin 1%Qc); (2, 3, Fin 1%Qc); (2, 1, Fin 1%Qc); (3, 2, Fin 1%Qc); (3, 1, Fin 1%Qc)]]) by (vm_compute; reflexivity).
    rewrite E, ET in EG. injection EG as ->. cbn. split; [eexists; do 4 right; left; reflexivity|]. split; [eexists; do 5 right; left; reflexivity|]. intros [x I]. repeat (destruct I as [I|I]; [discriminate|]). destruct I.
Qed.
(** Distance matrices with a diagonal which is not zero: the nearest neighbour may be
    missing. *)
Definition ex_matrix : list (list fl) := [[fz 5; fz 1; fz 2]; [fz 1; fz 5; fz 3]; [fz 2; fz 3; fz 5]].
Theorem kng_diagonal_refuted : exists e g, kng_fit (kng_init 1 "connectivity" "precomputed" 2 None) (CSeq [MkArr ValidModel.Dense [3; 3] (concat ex_matrix)]) = Ok e /\
  kng_transform ex_dist ex_nearest ex_sparse e (CSeq [MkArr ValidModel.Dense [3; 3] (concat ex_matrix)]) = Ok [g] /\
  edge g 0 2 /\ ~ edge g 0 1.
Proof.
  eexists. eexists. split; [vm_compute; reflexivity|]. split; [vm_compute; reflexivity|]. cbn. split; [eexists; left; reflexivity|]. intros [x I]. repeat (destruct I as [I|I]; [discriminate|]). destruct I.
Qed.

(** Infinite distances are accepted by fit but not by transform. *)
Theorem kng_infinite_refuted : let X := CSeq [MkArr ValidModel.Dense [2; 2] [fz 0; PInf; PInf; fz 0]] in
  exists e, kng_fit (kng_init 1 "connectivity" "precomputed" 2 None) X = Ok e /\ kng_transform ex_dist ex_nearest ex_sparse e X = Err ValueError.
Proof. eexists. split; vm_compute; reflexivity. Qed.

Print Assumptions kng_fit_list.
Print Assumptions kng_infinite_refuted.
Print Assumptions kng_spec.
Print Assumptions kng_refuses.
Print Assumptions kng_fit_stateless.
Print Assumptions kng_unfitted.
Print Assumptions kng_isometry.
Print Assumptions kng_geodesic.
Print Assumptions knn_few_closer.
Print Assumptions knn_joined.
Print Assumptions knn_distinct.
Print Assumptions knn_relabel.
Print Assumptions kng_diagonal_refuted.
