(** C75: KNeighborsGraph. *)
From Coq Require Import String Sorted.
From Verif Require Import Np NpFacts Fl FlFacts DiagModel DiagProofs ValidModel ValidSpec ValidThms CurveThms2 MplotThms5 GraphModel GraphSpec GraphThms2 KnnModel KnnSpec KnnThms.
Open Scope Z_scope.

Lemma concat_uniform {A} (c : list (list A)) m : (forall r, In r c -> zlen r = m) -> zlen (concat c) = zlen c * m.
Proof. intros H. now apply zlen_concat_uniform. Qed.
Lemma holds_size x c n m : holds x c n m -> c <> [] -> (forall r, In r c -> r <> []) -> 1 <= n /\ 1 <= m.
Proof.
  intros [_ [_ [_ [Hn Hm]]]] NE NR. destruct c as [|r c]; [contradiction|]. rewrite zlen_cons in Hn. pose proof (zlen_nonneg c). split; [lia|].
  pose proof (NR r (or_introl eq_refl)). rewrite <- (Hm r (or_introl eq_refl)). destruct r; [contradiction|]. rewrite zlen_cons. pose proof (zlen_nonneg r). lia.
Qed.
Lemma square_given metric dist c d m : c <> [] -> (forall r, In r c -> zlen r = m) -> distances metric dist c d -> metric = "precomputed"%string -> zlen c = m.
Proof.
  intros NE Hm [N _|_ Sq _] E; [contradiction|]. destruct c as [|r c]; [contradiction|]. rewrite <- (Hm r (or_introl eq_refl)). symmetry. apply (Sq 0). apply Znth_0.
Qed.
Lemma contains_checked metric dist X clouds D : contains X clouds -> clouds <> [] -> (forall c, In c clouds -> proper_cloud metric dist c (D c)) ->
  exists out w xs, check_point_clouds X (String.eqb metric "precomputed") true None = Ok (out, w) /\ samples out = Ok xs /\
    Forall2 (fun x c => exists n m, holds x c n m) xs clouds.
Proof.
  intros HC NE HP. set (pre := String.eqb metric "precomputed"). assert (AL : forall x q, x = Fin q -> allowed pre None x) by (intros x q ->; unfold allowed; destruct pre; [discriminate|eauto]).
  destruct HC as [n m clouds Hs Hn Hm|l clouds HF].
  - set (x := MkArr ValidModel.Dense [zlen clouds; n; m] (concat (map (@concat fl) clouds))).
    destruct (check_point_clouds_array x pre true None eq_refl) as [[a [n' [m' [w [_ [_ [_ [_ [E _]]]]]]]]]|[B _]].
    + exists (OutArr x), w, (map (MkArr ValidModel.Dense [n; m]) (map (@concat fl) clouds)). split; [exact E|]. split.
      * unfold samples. cbn [x a_shape a_data a_kind]. rewrite np_reshape_concat; [reflexivity|now rewrite zlen_map| |nia]. intros y Hy. apply in_map_iff in Hy. destruct Hy as [c [<- Hc]]. destruct (Hs c Hc) as [<- Hr]. now apply concat_uniform.
      * rewrite map_map. clear - Hs. induction clouds as [|c cl IH]; [constructor|]. cbn [map]. constructor; [|apply IH; intros; apply Hs; now right]. exists n, m. destruct (Hs c (or_introl eq_refl)) as [H1 H2]. unfold holds. cbn. auto.
    + exfalso. apply B. exists (zlen clouds), n, m. split; [reflexivity|]. split; [destruct clouds; [contradiction|]; rewrite zlen_cons; pose proof (zlen_nonneg clouds); lia|]. split.
      * intros E. apply String.eqb_eq in E. destruct clouds as [|c cl]; [contradiction|]. destruct (Hs c (or_introl eq_refl)) as [<- Hr]. destruct (HP c (or_introl eq_refl)) as [N1 [_ [_ [Di _]]]]. now apply (square_given metric dist c (D c)).
      * cbn [x a_data]. intros y Hy. apply in_concat in Hy. destruct Hy as [b [Hb Hy]]. apply in_map_iff in Hb. destruct Hb as [c [<- Hc]]. apply in_concat in Hy. destruct Hy as [r [Hr Hy]]. destruct (HP c Hc) as [_ [_ [Fi _]]]. destruct (Fi r y Hr Hy) as [q ->]. now apply (AL _ q).
  - assert (NL : l <> []) by (inversion HF; subst; [contradiction|discriminate]).
    assert (HD : forall x, In x l -> exists c n m, In c clouds /\ holds x c n m).
    { clear - HF. induction HF as [|x c l cl [n [m H]] F IH]; intros y Hy; [destruct Hy|]. destruct Hy as [<-|Hy]; [exists c, n, m; split; [now left|assumption]|]. destruct (IH y Hy) as [c' [n' [m' [I H']]]]. exists c', n', m'. split; [now right|assumption]. }
    destruct (check_point_clouds_list l pre true None NL) as [[_ [w [_ [[_ E]|[_ E]]]]]|[B _]].
    + intros x Hx. destruct (HD x Hx) as [c [n [m [_ [K _]]]]]. rewrite K. split; discriminate.
    + exists (OutStacked l), w, l. auto.
    + exists (OutList l), w, l. auto.
    + exfalso. apply B. intros x Hx. destruct (HD x Hx) as [c [n [m [Hc H]]]]. destruct (HP c Hc) as [N1 [N2 [Fi [Di _]]]]. destruct (holds_size _ _ _ _ H N1 N2) as [n1 m1]. destruct H as [K [Sh [Da [Hn Hm]]]]. split.
      * exists n, m. split; [assumption|]. split; [assumption|]. split; [assumption|]. intros E _. apply String.eqb_eq in E. rewrite <- Hn. now apply (square_given metric dist c (D c)).
      * rewrite Da. intros y Hy. apply in_concat in Hy. destruct Hy as [r [Hr Hy]]. destruct (Fi r y Hr Hy) as [q ->]. now apply (AL _ q).
Qed.

Section Estimator.
Context {M : Type}.
Variable dist : string -> Z -> option M -> list fl -> list fl -> res fl.
Variable nearest : list fl -> Z -> list Z.
Variable sparse_graph : string -> Z -> option M -> string -> Z -> ValidModel.arr -> res adj.
(** The search finds k smallest entries of a row, ties in any way. *)
Hypothesis nearest_ok : forall row k, 1 <= k <= zlen row -> smallest row k (nearest (map Fin row) k).
Notation transform := (kng_transform dist nearest sparse_graph).

(** transform gives, for each point cloud or distance matrix and in this order, its
    graph of k nearest neighbours. *)
Theorem kng_spec k md mt p mp X0 e X clouds D :
  kng_fit (kng_init k md mt p mp) X0 = Ok e ->
  contains X clouds -> clouds <> [] -> (forall c, In c clouds -> proper_cloud mt (dist mt p mp) c (D c)) ->
  1 <= k -> (forall c, In c clouds -> k < zlen c) -> md = "connectivity"%string \/ md = "distance"%string ->
  exists gs, transform e X = Ok gs /\
    Forall2 (fun c g => knn_graph (zlen c) k (D c) (fun i j => if String.eqb md "connectivity" then 1%Qc else D c i j) g) clouds gs.
Proof.
  intros EF HC NE HP Hk Hn Hmd. unfold kng_fit in EF. destruct (check_point_clouds X0 _ _ _); cbn [bind] in EF; [|discriminate]. injection EF as <-. cbn [metric kng_init].
  destruct (contains_checked _ _ _ _ _ HC NE HP) as [out [w [xs [E1 [E2 F]]]]]. unfold kng_transform. cbn [is_precomputed metric KnnModel.p metric_params mode n_neighbors kng_init] in *. rewrite E1. cbn [bind fst]. rewrite E2. cbn [bind].
  clear - nearest_ok HP Hk Hn Hmd F. induction F as [|x c xs cl [n [m H]] F IH]; [exists []; split; [reflexivity|constructor]|]. destruct IH as [gs [E G]]; [intros; apply HP; now right|intros; apply Hn; now right|].
  destruct (one_ok dist nearest sparse_graph nearest_ok mt p mp md k c (D c) x n m H) as [g [Eg Gg]]; [apply HP; now left|split; [assumption|apply Hn; now left]|assumption|]. exists (g :: gs). cbn [mapM]. rewrite Eg. cbn [bind]. rewrite E. split; [reflexivity|now constructor].
Qed.
(** Otherwise it fails with a ValueError: k not positive, a cloud with k points or less, an
    unknown mode. *)
Theorem kng_refuses k md mt p mp X0 e X clouds D :
  kng_fit (kng_init k md mt p mp) X0 = Ok e ->
  contains X clouds -> clouds <> [] -> (forall c, In c clouds -> proper_cloud mt (dist mt p mp) c (D c)) ->
  k <= 0 \/ (exists c, In c clouds /\ zlen c <= k) \/ (md <> "connectivity"%string /\ md <> "distance"%string) ->
  transform e X = Err ValueError.
Proof.
  intros EF HC NE HP Hb. unfold kng_fit in EF. destruct (check_point_clouds X0 _ _ _); cbn [bind] in EF; [|discriminate]. injection EF as <-. cbn [metric kng_init].
  destruct (contains_checked _ _ _ _ _ HC NE HP) as [out [w [xs [E1 [E2 F]]]]]. unfold kng_transform. cbn [is_precomputed metric KnnModel.p metric_params mode n_neighbors kng_init] in *. rewrite E1. cbn [bind fst]. rewrite E2. cbn [bind].
  assert (R : forall x, In x xs -> exists c n m, In c clouds /\ holds x c n m).
  { clear - F. induction F as [|x c l cl [n [m H]] F IH]; intros y Hy; [destruct Hy|]. destruct Hy as [<-|Hy]; [exists c, n, m; split; [now left|assumption]|]. destruct (IH y Hy) as [c' [n' [m' [I H']]]]. exists c', n', m'. split; [now right|assumption]. }
  assert (R' : forall c, In c clouds -> exists x n m, In x xs /\ holds x c n m).
  { clear - F. induction F as [|x c l cl [n [m H]] F IH]; intros y Hy; [destruct Hy|]. destruct Hy as [<-|Hy]; [exists x, n, m; split; [now left|assumption]|]. destruct (IH y Hy) as [c' [n' [m' [I H']]]]. exists c', n', m'. split; [now right|assumption]. }
  assert (DM : (md = "connectivity"%string \/ md = "distance"%string) \/ ~ (md = "connectivity"%string \/ md = "distance"%string)).
  { destruct (String.eqb_spec md "connectivity") as [?|?]; [now left; left|]. destruct (String.eqb_spec md "distance") as [?|?]; [now left; right|]. right. intros [?|?]; contradiction. }
  apply mapM_only_err.
  - intros x Hx. destruct (R x Hx) as [c [n [m [Hc H]]]]. assert (DD : (1 <= k < zlen c /\ (md = "connectivity"%string \/ md = "distance"%string)) \/ ~ (1 <= k < zlen c /\ (md = "connectivity"%string \/ md = "distance"%string))).
    { destruct DM as [Y|N]; [|right; intros [_ Y]; contradiction]. destruct (Z_le_dec 1 k); [destruct (Z_lt_dec k (zlen c)); [left; auto|right; lia]|right; lia]. }
    destruct DD as [[Y1 Y2]|N]; [left; destruct (one_ok dist nearest sparse_graph nearest_ok mt p mp md k c (D c) x n m H (HP c Hc) Y1 Y2) as [g [Eg _]]; eauto|right]. exact (one_err dist nearest sparse_graph mt p mp md k c (D c) x n m H (HP c Hc) N).
  - assert (Q : exists c, In c clouds /\ ~ (1 <= k < zlen c /\ (md = "connectivity"%string \/ md = "distance"%string))).
    { destruct Hb as [Hb|[[c [Hc Hb]]|[Hb1 Hb2]]]; [| |]; [destruct clouds as [|c cl]; [contradiction|]; exists c; split; [now left|lia]|exists c; split; [assumption|lia]|destruct clouds as [|c cl]; [contradiction|]; exists c; split; [now left|]; intros [_ [?|?]]; contradiction]. }
    destruct Q as [c [Hc N]]. destruct (R' c Hc) as [x [n [m [Hx H]]]]. exists x. split; [assumption|]. now apply (one_err dist nearest sparse_graph mt p mp md k c (D c) x n m (H) (HP c Hc)).
Qed.
(** fit learns nothing from its data, and transform needs it. *)
Theorem kng_fit_stateless k md mt p mp X0 X1 e0 e1 :
  kng_fit (M := M) (kng_init k md mt p mp) X0 = Ok e0 -> kng_fit (kng_init k md mt p mp) X1 = Ok e1 -> e0 = e1.
Proof. unfold kng_fit. destruct (check_point_clouds X0 _ _ _); [|discriminate]. destruct (check_point_clouds X1 _ _ _); [|discriminate]. cbn. congruence. Qed.
Theorem kng_unfitted k md mt p mp X : transform (kng_init k md mt p mp) X = Err NotFittedError.
Proof. reflexivity. Qed.
(** fit accepts exactly the collections of finite point clouds, or of square matrices
    without NaN if the metric is 'precomputed'. *)
Theorem kng_fit_list k md mt p mp l : l <> [] -> (forall x, In x l -> a_kind x = ValidModel.Dense) ->
  ((forall x, In x l -> good_entry (String.eqb mt "precomputed") None x) /\ exists e, kng_fit (M := M) (kng_init k md mt p mp) (CSeq l) = Ok e) \/
  (~ (forall x, In x l -> good_entry (String.eqb mt "precomputed") None x) /\ kng_fit (M := M) (kng_init k md mt p mp) (CSeq l) = Err ValueError).
Proof.
  intros NE K. unfold kng_fit. cbn [metric kng_init]. destruct (check_point_clouds_list l (String.eqb mt "precomputed") true None NE) as [[G [w [_ [[_ E]|[_ E]]]]]|[B E]].
  - intros x Hx. rewrite (K x Hx). split; discriminate.
  - left. split; [assumption|]. rewrite E. cbn. eauto.
  - left. split; [assumption|]. rewrite E. cbn. eauto.
  - right. split; [assumption|]. now rewrite E.
Qed.
(** The graphs only depend on the distances: if two collections have the same ones, for
    instance when one is obtained by an isometry, the graphs are the same. *)
Theorem kng_isometry k md mt p mp X0 e X X' clouds clouds' D D' :
  kng_fit (kng_init k md mt p mp) X0 = Ok e ->
  contains X clouds -> contains X' clouds' -> clouds <> [] ->
  (forall c, In c clouds -> proper_cloud mt (dist mt p mp) c (D c)) -> (forall c, In c clouds' -> proper_cloud mt (dist mt p mp) c (D' c)) ->
  Forall2 (fun c c' => zlen c = zlen c' /\ forall i j, 0 <= i < zlen c -> 0 <= j < zlen c -> D c i j = D' c' i j) clouds clouds' ->
  transform e X = transform e X'.
Proof.
  intros EF HC HC' NE HP HP' HF. unfold kng_fit in EF. destruct (check_point_clouds X0 _ _ _); cbn [bind] in EF; [|discriminate]. injection EF as <-. cbn [metric kng_init].
  assert (NE' : clouds' <> []) by (inversion HF; subst; [contradiction|discriminate]).
  destruct (contains_checked _ _ _ _ _ HC NE HP) as [out [w [xs [E1 [E2 F]]]]]. destruct (contains_checked _ _ _ _ _ HC' NE' HP') as [out' [w' [xs' [E1' [E2' F']]]]]. unfold kng_transform. cbn [is_precomputed metric KnnModel.p metric_params mode n_neighbors kng_init] in *. rewrite E1, E1'. cbn [bind fst]. rewrite E2, E2'. cbn [bind].
  clear - HP HP' HF F F'. revert xs xs' F F'. induction HF as [|c c' cl cl' [Hl Hd] HF IH]; intros xs xs' F F'; inversion F; inversion F'; subst; [reflexivity|]. cbn [mapM].
  rewrite (IH (fun c Hc => HP c (or_intror Hc)) (fun c Hc => HP' c (or_intror Hc)) l l0) by assumption.
  replace (kneighbors_graph dist nearest sparse_graph mt p mp md k x0) with (kneighbors_graph dist nearest sparse_graph mt p mp md k x); [reflexivity|].
  match goal with H : exists n m, holds x c n m |- _ => destruct H as [n [m HA]] end. match goal with H : exists n m, holds x0 c' n m |- _ => destruct H as [n' [m' HB]] end.
  pose proof (matrix_ok dist mt p mp c (D c) x n m HA (HP c (or_introl eq_refl))) as M1. pose proof (matrix_ok dist mt p mp c' (D' c') x0 n' m' HB (HP' c' (or_introl eq_refl))) as M2.
  destruct HA as [K [Sh [Da [Hn _]]]], HB as [K' [Sh' [Da' [Hn' _]]]]. unfold kneighbors_graph. rewrite K, K', Sh, Sh', M1, M2. replace n' with n by congruence.
  replace (tabZ n (fun i => map Fin (tabZ n (D' c' i)))) with (tabZ n (fun i => map Fin (tabZ n (D c i)))); [reflexivity|]. apply tabZ_ext. intros i Hi. f_equal. apply tabZ_ext. intros j Hj. apply Hd; lia.
Qed.

(** ** With GraphGeodesicDistance: the edges that scipy sees are those to the nearest
    neighbours. *)
Theorem kng_geodesic {R} (shortest_path : adj -> bool -> bool -> string -> res R) shape directed unweighted
  (geodesics : Z -> (Z -> Z -> fl -> Prop) -> R) method k md mt p mp X0 e X clouds D :
  (forall g m E, scipy_accepts g -> supported g m -> (forall i j w, scipy_edge g i j w <-> E i j w) ->
     shortest_path g directed unweighted m = Ok (geodesics (vertices g) E)) ->
  kng_fit (kng_init k md mt p mp) X0 = Ok e ->
  contains X clouds -> clouds <> [] -> (forall c, In c clouds -> proper_cloud mt (dist mt p mp) c (D c)) ->
  1 <= k -> (forall c, In c clouds -> k < zlen c) -> md = "connectivity"%string \/ (md = "distance"%string /\ forall c i j, In c clouds -> (0 <= D c i j)%Qc) ->
  exists gs one, transform e X = Ok gs /\
    Forall2 (fun c g => knn_graph (zlen c) k (D c) (fun i j => if String.eqb md "connectivity" then 1%Qc else D c i j) g) clouds gs /\
    geodesic_transform shortest_path shape directed unweighted method gs =
      Ok (one, map (fun g => geodesics (vertices g) (fun i j w => match g with Sparse _ _ stored => In (i, j, w) stored | _ => False end)) gs).
Proof.
  intros SP EF HC NE HP Hk Hn Hmd. destruct (kng_spec k md mt p mp X0 e X clouds D EF HC NE HP Hk Hn) as [gs [E F]]; [tauto|].
  assert (SH : forall g, In g gs -> exists c, In c clouds /\ knn_graph (zlen c) k (D c) (fun i j => if String.eqb md "connectivity" then 1%Qc else D c i j) g).
  { clear - F. induction F as [|c g cl gl H F IH]; intros y Hy; [destruct Hy|]. destruct Hy as [<-|Hy]; [exists c; split; [now left|assumption]|]. destruct (IH y Hy) as [c' [I H']]. exists c'. split; [now right|assumption]. }
  destruct (geodesic_transform_spec shortest_path shape directed unweighted geodesics method gs SP) as [one [EG _]].
  - inversion F; subst; [contradiction|discriminate].
  - intros g Hg. destruct (SH g Hg) as [c [_ [st [-> [H _]]]]]. cbn. intros i j w I. destruct (H i j w I) as [? [? _]]. auto.
  - intros _ g i j w Hg He. destruct (SH g Hg) as [c [Hc [st [-> [H _]]]]]. cbn in He. destruct (H i j w He) as [_ [_ [_ ->]]]. unfold flt. unfold Qcltb. apply negb_false_iff. apply Qle_bool_iff. destruct (String.eqb_spec md "connectivity") as [?|N]; [discriminate|]. destruct Hmd as [?|[_ Hd]]; [contradiction|]. apply (Hd c i j Hc).
  - exists gs, one. split; [assumption|]. split; [assumption|]. rewrite EG. f_equal. f_equal. apply map_ext_in. intros g Hg. destruct (SH g Hg) as [c [_ [st [-> _]]]]. reflexivity.
Qed.
End Estimator.
