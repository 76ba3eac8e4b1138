(** Property theorems for diagram post-processing, validation, filtering and
    scaling (C11-C13, C17-C19, C52). *)
From Coq Require Import Permutation Sorted.
From Verif Require Import Np NpFacts Fl FlFacts DiagTypes DiagModel DiagSpec
  DiagProofs DiagProofs2 DiagProofs3.
Open Scope Z_scope.

(** ** C11  Post-processing preserves exactly the non-trivial points *)
Theorem postprocess_preserves_points :
  forall (junk : pt) (Xt0 : list backend) (dims : list Z) (inf_value : fl) (reduced : bool),
    Xt0 <> [] ->
    (forall d dim, In d Xt0 -> In dim dims -> has_dimension d dim) ->
    exists ns ms,
      zlen ns = zlen dims /\ zlen ms = zlen dims /\
      (forall k dim, Znth dims k = Some dim -> exists n m,
         Znth ns k = Some n /\ Znth ms k = Some m /\
         is_slot_count n (map (fun d => nontrivial_rows reduced inf_value d dim) Xt0) /\
         is_padding_value m (map (fun d => nontrivial_rows reduced inf_value d dim) Xt0)) /\
      postprocess_diagrams junk Xt0 dims inf_value reduced = Ok (map (fun d =>
        concat (map (fun qnm => padded (fst (snd qnm)) (snd (snd qnm)) (fz (fst qnm))
                                  (nontrivial_rows reduced inf_value d (fst qnm)))
                    (combine dims (combine ns ms)))) Xt0).
Proof. exact postprocess_ok. Qed.

(** The same, dimension by dimension: the dimension-[dim] rows of sample i of
    the output are the non-trivial points of sample i, then diagonal rows. *)
Theorem postprocess_rows_of_dimension :
  forall (junk : pt) (Xt0 : list backend) (dims : list Z) (inf_value : fl) (reduced : bool) R,
    Xt0 <> [] -> NoDup dims ->
    (forall d dim, In d Xt0 -> In dim dims -> has_dimension d dim) ->
    postprocess_diagrams junk Xt0 dims inf_value reduced = Ok R ->
    forall dim, In dim dims -> exists n m,
      is_slot_count n (map (fun d => nontrivial_rows reduced inf_value d dim) Xt0) /\
      is_padding_value m (map (fun d => nontrivial_rows reduced inf_value d dim) Xt0) /\
      map (rows_of (fz dim)) R =
      map (fun d => padded n m (fz dim) (nontrivial_rows reduced inf_value d dim)) Xt0.
Proof. exact postprocess_rows. Qed.

(** Two samples; H0 listed by dimension with the infinite class last, reduced;
    the second sample has no H1 class. *)
Definition ex_backend : list backend :=
  [ ByDimension [ [(fz 0, fz 1); (fz 0, fz 3); (fz 0, PInf)]; [(fz 2, fz 5); (fz 2, fz 2)] ];
    ByDimension [ [(fz 0, fz 4); (fz 0, PInf)]; [] ] ].
Example postprocess_example :
  match postprocess_diagrams (Pt NaN NaN NaN) ex_backend [0; 1] PInf true with
  | Ok R => feqs (flatten R)
      (map fz [0;1;0; 0;3;0; 2;5;1;   0;4;0; 0;0;0; 2;2;1]) && (zlen R =? 2)
  | Err _ => false
  end = true /\
  (forall d dim, In d ex_backend -> In dim [0; 1] -> has_dimension d dim).
Proof.
  split; [vm_compute; reflexivity|].
  intros d dim [<-|[<-|[]]] [<-|[<-|[]]]; split; vm_compute; (congruence || reflexivity).
Qed.

(** ** C12  Post-processed collections are rectangular and valid *)
Theorem postprocess_rectangular_valid :
  forall (junk : pt) (Xt0 : list backend) (dims : list Z) (inf_value : fl) (reduced : bool) R,
    Xt0 <> [] -> dims <> [] ->
    (forall d dim, In d Xt0 -> In dim dims -> has_dimension d dim) ->
    postprocess_diagrams junk Xt0 dims inf_value reduced = Ok R ->
    exists N, 1 <= N /\ zlen R = zlen Xt0 /\ (forall x, In x R -> zlen x = N) /\
      (forall x y, In x R -> In y R -> map pq x = map pq y) /\
      (forall dim, In dim dims -> forall x, In x R -> rows_of (fz dim) x <> []) /\
      check_diagrams [zlen R; N; 3] (flatten R) = Ok R.
Proof. exact postprocess_valid. Qed.

(** ** C13  Homology output can be split back by dimension *)
Theorem postprocess_split_by_dimension :
  forall (junk : pt) (Xt0 : list backend) (dims : list Z) (inf_value : fl) (reduced : bool) R (q : fl),
    Xt0 <> [] -> dims <> [] ->
    (forall d dim, In d Xt0 -> In dim dims -> has_dimension d dim) ->
    postprocess_diagrams junk Xt0 dims inf_value reduced = Ok R ->
    subdiagrams R [q] = Ok (map (rows_of q) R).
Proof. exact postprocess_split. Qed.

(** Extraction is right for every collection in which each extracted dimension
    has the same number of rows in all samples... *)
Theorem subdiagrams_balanced_spec :
  forall (X : list diagram) (qs : list fl),
    X <> [] -> qs <> [] -> (forall q, In q qs -> balanced q X) ->
    subdiagrams X qs = Ok (map (fun x => concat (map (fun q => rows_of q x) qs)) X).
Proof. exact subdiagrams_ok. Qed.

(** It raises IndexError without samples, and else ValueError, exactly when no dimension is asked for
    or when the rows of one cannot be cut into as many pieces of the first sample's length. *)
Theorem subdiagrams_errors :
  forall (X : list diagram) (qs : list fl) e,
    subdiagrams X qs = Err e <->
    (X = [] /\ e = IndexError) \/
    (X <> [] /\ e = ValueError /\
     (qs = [] \/ exists q, In q qs /\ zlen (rows_of q (concat X)) <> zlen X * zlen (rows_of q (hd [] X)))).
Proof.
  intros X qs e. destruct X as [|x0 X].
  { cbn. split; [injection 1 as <-; auto|]. now intros [[_ ->]|[? _]]. }
  assert (S : forall q, (zlen (rows_of q (concat (x0 :: X))) = zlen (x0 :: X) * zlen (rows_of q x0) /\ exists r, subdiagrams_single (x0 :: X) q = Ok r) \/
    (zlen (rows_of q (concat (x0 :: X))) <> zlen (x0 :: X) * zlen (rows_of q x0) /\ subdiagrams_single (x0 :: X) q = Err ValueError)).
  { intro q. change (subdiagrams_single (x0 :: X) q) with (np_reshape (zlen (x0 :: X)) (zlen (rows_of q x0)) (rows_of q (concat (x0 :: X)))).
    unfold np_reshape. destruct (Z.eqb_spec (zlen (rows_of q (concat (x0 :: X)))) (zlen (x0 :: X) * zlen (rows_of q x0))); eauto. }
  assert (M : forall l, (exists q, In q l /\ zlen (rows_of q (concat (x0 :: X))) <> zlen (x0 :: X) * zlen (rows_of q x0)) /\ mapM (subdiagrams_single (x0 :: X)) l = Err ValueError \/
     (forall q, In q l -> zlen (rows_of q (concat (x0 :: X))) = zlen (x0 :: X) * zlen (rows_of q x0)) /\ exists r, mapM (subdiagrams_single (x0 :: X)) l = Ok r).
  { induction l as [|q l IH]; cbn [mapM]; [right; split; [intros ? []|eauto]|]. destruct (S q) as [[E [r ->]]|[E ->]]; cbn [bind].
    - destruct IH as [[(q' & I & N) ->]|[A [r' ->]]]; cbn [bind].
      + left. split; [exists q'; split; [now right|auto]|auto].
      + right. split; [|eauto]. intros q' [<-|I]; auto.
    - left. split; [|auto]. exists q. split; [now left|auto]. }
  assert (U : (exists q, In q qs /\ zlen (rows_of q (concat (x0 :: X))) <> zlen (x0 :: X) * zlen (rows_of q x0)) /\ subdiagrams (x0 :: X) qs = Err ValueError \/
    (forall q, In q qs -> zlen (rows_of q (concat (x0 :: X))) = zlen (x0 :: X) * zlen (rows_of q x0)) /\
    (qs = [] /\ subdiagrams (x0 :: X) qs = Err ValueError \/ qs <> [] /\ exists r, subdiagrams (x0 :: X) qs = Ok r)).
  { destruct qs as [|q [|q' qs]].
    - right. split; [intros ? []|]. left. split; reflexivity.
    - change (subdiagrams (x0 :: X) [q]) with (subdiagrams_single (x0 :: X) q). destruct (S q) as [[E R]|[E R]].
      + right. split; [intros ? [<-|[]]; auto|]. right. split; [easy|auto].
      + left. split; auto. exists q. split; [now left|auto].
    - change (subdiagrams (x0 :: X) (q :: q' :: qs)) with (do parts <- mapM (subdiagrams_single (x0 :: X)) (q :: q' :: qs); Ok (hcat (zlen (x0 :: X)) parts)).
      destruct (M (q :: q' :: qs)) as [[Q ->]|[Q [r ->]]]; [left; auto|right]. split; auto. right. split; [easy|]. cbn [bind]. eauto. }
  cbn [hd]. split.
  - intro H. right. split; [easy|]. destruct U as [[Q R]|[Q [[E R]|[E [r R]]]]]; rewrite R in H; [| |easy]; injection H as <-; auto.
  - intros [[? _]|(_ & -> & K)]; [easy|]. destruct U as [[Q R]|[Q [[E R]|[E [r R]]]]]; auto. exfalso.
    destruct K as [K|(q & I & N)]; auto.
Qed.

(** ... but in general it may silently mix samples, although check_diagrams
    accepts the collection: here the H0 rows of the three samples are 2, 1 and 3;
    the second extracted diagram gets a point of the third sample. *)
Definition mixed_collection : list diagram :=
  [ [Pt (fz 0) (fz 1) (fz 0); Pt (fz 0) (fz 2) (fz 0); Pt (fz 0) (fz 1) (fz 1)];
    [Pt (fz 0) (fz 3) (fz 0); Pt (fz 0) (fz 1) (fz 1); Pt (fz 0) (fz 2) (fz 1)];
    [Pt (fz 0) (fz 4) (fz 0); Pt (fz 0) (fz 5) (fz 0); Pt (fz 0) (fz 6) (fz 0)] ].
Theorem subdiagrams_mixes_samples_refuted :
  exists X S s p, check_diagrams [3; 3; 3] (flatten X) = Ok X /\
    subdiagrams X [fz 0] = Ok S /\ Znth S 1 = Some s /\ In p s /\
    ~ (exists x, Znth X 1 = Some x /\ In p x).
Proof.
  exists mixed_collection. eexists. eexists. exists (Pt (fz 0) (fz 4) (fz 0)).
  split; [|split; [|split; [|split]]].
  - apply check_diagrams_ok.
    + intros s [<-|[<-|[<-|[]]]]; lia.
    + reflexivity.
    + exists 3, 3. split; [reflexivity|]. split; [lia|]. split; [reflexivity|].
      split; [intros x [<-|[<-|[<-|[]]]]; reflexivity|]. split; [reflexivity|]. split; [|split].
      * right. intros p [<-|[<-|[<-|[]]]]; eexists; (split; [|reflexivity]); lia.
      * intros x p [<-|[<-|[<-|[]]]] [<-|[<-|[<-|[]]]]; reflexivity.
      * intros x p [<-|[<-|[<-|[]]]] [<-|[<-|[<-|[]]]]; (split; [discriminate|split; discriminate]).
  - vm_compute. reflexivity.
  - vm_compute. reflexivity.
  - right. left. apply f_equal3; try reflexivity. 
  - intros [x [H Hin]]. injection H as <-.
    destruct Hin as [E|[E|[E|[]]]]; apply (f_equal (fun p => feq (pd p) (fz 4))) in E; discriminate E.
Qed.

(** ** C17  Filtering removes exactly the short-lived points *)
Theorem filtering_spec :
  forall (X : list diagram) (filtered : list fl) (epsilon : fl),
    X <> [] ->
    (forall p, In p (hd [] X) -> isnan (pq p) = false) ->
    (forall q, In q (map pq (hd [] X)) -> ~ In q filtered -> balanced q X) ->
    exists ns ms others,
      increasing others /\
      (forall q, In q others <-> In q (map pq (hd [] X)) /\ ~ In q filtered) /\
      zlen ns = zlen filtered /\ zlen ms = zlen filtered /\
      (forall i q, Znth filtered i = Some q -> exists n m,
          Znth ns i = Some n /\ Znth ms i = Some m /\
      is_slot_count n (map (long_lived epsilon q) X) /\
      is_padding_value m (map (long_lived epsilon q) X)) /\
      filter_diagrams X filtered epsilon = Ok (map (fun x =>
         concat (map (fun qnm => padded (fst (snd qnm)) (snd (snd qnm)) (fst qnm)
                                  (long_lived epsilon (fst qnm) x))
                     (combine filtered (combine ns ms)))
         ++ concat (map (fun q => rows_of q x) others)) X).
Proof. exact filter_diagrams_full. Qed.

(** Filtering.fit(X).transform(Y): the filtered dimensions are the requested
    ones in increasing order, or all those of the first training diagram. *)
Theorem filtering_fit_transform_spec :
  forall (homology_dimensions : option (list Z)) (epsilon : fl) (X Y : list diagram),
    X <> [] -> (forall p, In p (hd [] X) -> isnan (pq p) = false) ->
    exists ds, filtering_fit_transform homology_dimensions epsilon X Y = filter_diagrams Y ds epsilon /\
      match homology_dimensions with
      | Some l => Permutation ds (map fz l) /\ StronglySorted (fun a b => fle a b = true) ds
      | None => increasing ds /\ forall q, In q ds <-> In q (map pq (hd [] X))
      end.
Proof. exact filtering_fit_transform_ok. Qed.

Theorem filtering_rectangular :
  forall (X : list diagram) (filtered : list fl) (epsilon : fl),
    X <> [] -> filtered <> [] ->
    (forall p, In p (hd [] X) -> isnan (pq p) = false) ->
    (forall q, In q (map pq (hd [] X)) -> ~ In q filtered -> balanced q X) ->
    exists R N, filter_diagrams X filtered epsilon = Ok R /\ zlen R = zlen X /\ 1 <= N /\
      (forall x, In x R -> zlen x = N).
Proof. exact filter_rectangular_full. Qed.

Definition ex_diagrams : list diagram :=
  [ [Pt (fz 0) (fz 1) (fz 0); Pt (fz 0) (fz 5) (fz 0); Pt (fz 3) (fz 4) (fz 1)];
    [Pt (fz 1) (fz 9) (fz 0); Pt (fz 2) (fz 7) (fz 0); Pt (fz 4) (fz 4) (fz 1)] ].
Example filtering_example :
  match filter_diagrams ex_diagrams [fz 0] (fz 2) with
  | Ok R => feqs (flatten R)
      (map fz [0;5;0; 0;0;0; 3;4;1;   1;9;0; 2;7;0; 4;4;1]) && (zlen R =? 2)
  | Err _ => false
  end = true /\ balanced (fz 1) ex_diagrams.
Proof. split; [vm_compute; reflexivity|]. exists 1. intros x [<-|[<-|[]]]; reflexivity. Qed.

(** The documented shape "n_features_filtered <= n_features" fails when a
    requested dimension does not occur in the input. *)
Theorem filtering_never_grows_refuted :
  exists X filtered R, filter_diagrams X filtered f0 = Ok R /\
    exists x r, Znth X 0 = Some x /\ Znth R 0 = Some r /\ zlen x < zlen r.
Proof.
  exists [[Pt (fz 0) (fz 1) (fz 0)]], [fz 0; fz 1].
  eexists. split; [vm_compute; reflexivity|]. eexists. eexists.
  split; [reflexivity|]. split; [reflexivity|]. vm_compute. reflexivity.
Qed.

(** ** C18  Scaler inverts and normalises *)
Theorem scaler_round_trip :
  forall (s : Qc) (X : list diagram), s <> 0%Qc ->
    scaler_inverse_transform (Fin s) (scaler_transform (Fin s) X) = X.
Proof. exact scaler_round_trip_l. Qed.

Theorem scaler_bottleneck_scale :
  forall (X : list diagram),
    X <> [] -> hd [] X <> [] -> finite_points X -> dimensions_of_first X ->
    (forall q, In q (map pq (hd [] X)) -> balanced q X) ->
    exists s, scaler_fit_bottleneck X = Ok (Fin s) /\ (0 <= s)%Qc /\
      (exists x p b d, In x X /\ In p x /\ pb p = Fin b /\ pd p = Fin d /\ (d - b = qz 2 * s)%Qc) /\
      (forall x p b d, In x X -> In p x -> pb p = Fin b -> pd p = Fin d -> (d - b <= qz 2 * s)%Qc).
Proof. exact scaler_fit_bottleneck_ok. Qed.

Theorem scaler_max_lifetime_is_two :
  forall (X : list diagram),
    X <> [] -> hd [] X <> [] -> finite_points X -> dimensions_of_first X ->
    (forall q, In q (map pq (hd [] X)) -> balanced q X) ->
    exists s, scaler_fit_bottleneck X = Ok (Fin s) /\ (0 <= s)%Qc /\
     ((0 < s)%Qc ->
      (exists x p b d, In x (scaler_transform (Fin s) X) /\ In p x /\
         pb p = Fin b /\ pd p = Fin d /\ (d - b = qz 2)%Qc) /\
      (forall x p, In x (scaler_transform (Fin s) X) -> In p x ->
         exists b d, pb p = Fin b /\ pd p = Fin d /\ (b <= d)%Qc /\ (d - b <= qz 2)%Qc)).
Proof. exact scaler_max_lifetime_l. Qed.

Example scaler_example :
  match scaler_fit_bottleneck ex_diagrams with
  | Ok s => feqs [s] [fz 4] &&
            feqs (flatten (scaler_transform s ex_diagrams))
                 (flatten (map (map (fun p => Pt (fdiv (pb p) (fz 4)) (fdiv (pd p) (fz 4)) (pq p))) ex_diagrams))
  | Err _ => false
  end = true /\
  finite_points ex_diagrams /\ dimensions_of_first ex_diagrams /\
  (forall q, In q (map pq (hd [] ex_diagrams)) -> balanced q ex_diagrams).
Proof.
  split; [vm_compute; reflexivity|]. split; [|split].
  - intros x p [<-|[<-|[]]] [<-|[<-|[<-|[]]]]; do 2 eexists; (split; [reflexivity|split; [reflexivity|]]); apply Qcleb_le; reflexivity.
  - intros x p [<-|[<-|[]]] [<-|[<-|[<-|[]]]]; (split; [reflexivity|]); simpl; tauto.
  - intros q [<-|[<-|[<-|[]]]]; [exists 2|exists 2|exists 1]; intros x [<-|[<-|[]]]; reflexivity.
Qed.

(** ** C19  ForgetDimension only changes the dimension column *)
Theorem forget_dimension_spec :
  forall (X : list diagram),
    zlen (forget_dimension X) = zlen X /\
    forall i x, Znth X i = Some x -> exists y,
      Znth (forget_dimension X) i = Some y /\ zlen y = zlen x /\
      forall j p, Znth x j = Some p -> Znth y j = Some (Pt (pb p) (pd p) PInf).
Proof.
  intros X. unfold forget_dimension. split; [apply zlen_map|]. intros i x H.
  exists (map (fun p => Pt (pb p) (pd p) PInf) x). split; [exact (eq_trans (Znth_map _ _ _) (f_equal (option_map _) H))|].
  split; [apply zlen_map|]. intros j p Hp. now rewrite Znth_map, Hp.
Qed.

(** The result is still an accepted collection. *)
Theorem forget_dimension_valid :
  forall (X : list diagram) (n m : Z),
    check_diagrams [n; m; 3] (flatten X) = Ok X -> 0 <= m -> zlen (flatten X) = n * (m * 3) ->
    check_diagrams [n; m; 3] (flatten (forget_dimension X)) = Ok (forget_dimension X).
Proof.
  intros X n m H Hm HL.
  assert (Hn : 0 <= n).
  { unfold check_diagrams in H. destruct (Z.ltb_spec n 1); [discriminate|lia]. }
  apply check_diagrams_ok in H.
  - destruct H as [n' [m' [E [Hn1 [HD [Hx [_ [V1 [V2 V3]]]]]]]]]. injection E as <- <-.
    assert (Hx' : forall x, In x (forget_dimension X) -> zlen x = m).
    { intros x Hi. apply in_map_iff in Hi. destruct Hi as [y [<- Hy]]. rewrite zlen_map. auto. }
    assert (HD' : zlen (forget_dimension X) = n) by (unfold forget_dimension; now rewrite zlen_map).
    apply check_diagrams_ok.
    + intros s [<-|[<-|[<-|[]]]]; lia.
    + rewrite zlen_flatten, (zlen_concat_uniform _ m Hx').
      transitivity (n * m * 3); [f_equal; f_equal; exact HD'|]. unfold shape_size. cbn [fold_right]. ring.
    + exists n, m. split; [reflexivity|]. split; [assumption|]. split; [assumption|]. split; [assumption|]. split; [reflexivity|].
      split; [|split].
      * left. intros p Hp. destruct X as [|x X]; [destruct Hp|]. cbn [forget_dimension map hd] in Hp.
        apply in_map_iff in Hp. destruct Hp as [r [<- _]]. reflexivity.
      * intros x p Hi Hp. apply in_map_iff in Hi. destruct Hi as [y [<- Hy]].
        apply in_map_iff in Hp. destruct Hp as [r [<- Hr]]. exact (V2 y r Hy Hr).
      * intros x p Hi Hp. apply in_map_iff in Hi. destruct Hi as [y [<- Hy]].
        apply in_map_iff in Hp. destruct Hp as [r [<- Hr]]. destruct (V3 y r Hy Hr) as [A [B _]].
        split; [exact A|split; [exact B|discriminate]].
  - intros s [<-|[<-|[<-|[]]]]; lia.
  - rewrite HL. unfold shape_size. cbn [fold_right]. ring.
Qed.

Example forget_dimension_example :
  feqs (flatten (forget_dimension [[Pt (fz 0) (fz 1) (fz 0); Pt (fz 2) (fz 3) (fz 1)]]))
       [fz 0; fz 1; PInf; fz 2; fz 3; PInf] = true /\
  check_diagrams [2; 3; 3] (flatten ex_diagrams) = Ok ex_diagrams.
Proof.
  split; [vm_compute; reflexivity|]. apply check_diagrams_ok.
  - intros s [<-|[<-|[<-|[]]]]; lia.
  - reflexivity.
  - exists 2, 3. split; [reflexivity|]. split; [lia|]. split; [reflexivity|].
    split; [intros x [<-|[<-|[]]]; reflexivity|]. split; [reflexivity|]. split; [|split].
    + right. intros p [<-|[<-|[<-|[]]]]; eexists; (split; [|reflexivity]); lia.
    + intros x p [<-|[<-|[]]] [<-|[<-|[<-|[]]]]; reflexivity.
    + intros x p [<-|[<-|[]]] [<-|[<-|[<-|[]]]]; (split; [discriminate|split; discriminate]).
Qed.

(** ** C52  check_diagrams accepts exactly valid collections *)
Theorem check_diagrams_spec :
  forall (shape : list Z) (data : list fl) (D : list diagram),
    (forall s, In s shape -> 0 <= s) -> zlen data = fold_right Z.mul 1 shape ->
    (check_diagrams shape data = Ok D <->
     exists n m, shape = [n; m; 3] /\ 1 <= n /\ zlen D = n /\ (forall x, In x D -> zlen x = m) /\
       flatten D = data /\ valid_collection D).
Proof. exact check_diagrams_ok. Qed.

(** Every rejection is a ValueError, except for an array that passes the shape
    and NaN checks and has -inf among the dimensions of its first diagram: that
    one is an OverflowError (from [int(dim)]). *)
Theorem check_diagrams_exceptions :
  forall (shape : list Z) (data : list fl),
    (forall s, In s shape -> 0 <= s) -> zlen data = fold_right Z.mul 1 shape ->
    (forall e, check_diagrams shape data = Err e -> e = ValueError \/ e = OverflowError) /\
    (check_diagrams shape data = Err OverflowError <->
     exists n m D, shape = [n; m; 3] /\ 1 <= n /\ zlen D = n /\ (forall x, In x D -> zlen x = m) /\
       flatten D = data /\
       (forall x p, In x D -> In p x -> pb p <> NaN /\ pd p <> NaN /\ pq p <> NaN) /\
       exists p, In p (hd [] D) /\ pq p = NInf).
Proof.
  intros shape data Hs Hl. split; [intros e; apply check_diagrams_err|]. now apply check_diagrams_overflow.
Qed.

Example check_diagrams_minus_inf_example :
  check_diagrams [1; 1; 3] [f0; f1; NInf] = Err OverflowError /\
  check_diagrams [2; 1; 3] [f0; f1; f0; f0; NaN; f0] = Err ValueError /\
  check_diagrams [1; 2] [f0; f1] = Err ValueError.
Proof. vm_compute. auto. Qed.

(** The stronger claim that the dimensions of every diagram are checked fails:
    only the first diagram's dimensions are looked at.  Here the second diagram
    has a point in dimension -1. *)
Theorem check_diagrams_all_dimensions_refuted :
  exists D, check_diagrams [2; 1; 3] (flatten D) = Ok D /\
    exists x p, In x D /\ In p x /\ ~ is_dim_label (pq p) /\ pq p <> PInf.
Proof.
  exists [[Pt f0 f1 f0]; [Pt f0 f1 (fz (-1))]]. split.
  - apply check_diagrams_ok.
    + intros s [<-|[<-|[<-|[]]]]; lia.
    + reflexivity.
    + exists 2, 1. split; [reflexivity|]. split; [lia|]. split; [reflexivity|].
      split; [intros x [<-|[<-|[]]]; reflexivity|]. split; [reflexivity|]. split; [|split].
      * right. intros p [<-|[]]. exists 0. split; [lia|]. exact f0_fz.
      * intros x p [<-|[<-|[]]] [<-|[]]; reflexivity.
      * intros x p [<-|[<-|[]]] [<-|[]]; (split; [discriminate|split; discriminate]).
  - exists [Pt f0 f1 (fz (-1))], (Pt f0 f1 (fz (-1))). split; [right; now left|]. split; [now left|].
    split; [|discriminate]. intros [k [Hk E]]. cbn [pq] in E.
    apply fz_inj in E. lia.
Qed.

Print Assumptions postprocess_preserves_points.
Print Assumptions postprocess_rows_of_dimension.
Print Assumptions postprocess_rectangular_valid.
Print Assumptions postprocess_split_by_dimension.
Print Assumptions subdiagrams_balanced_spec.
Print Assumptions subdiagrams_errors.
Print Assumptions subdiagrams_mixes_samples_refuted.
Print Assumptions filtering_spec.
Print Assumptions filtering_fit_transform_spec.
Print Assumptions filtering_rectangular.
Print Assumptions filtering_never_grows_refuted.
Print Assumptions scaler_round_trip.
Print Assumptions scaler_bottleneck_scale.
Print Assumptions scaler_max_lifetime_is_two.
Print Assumptions forget_dimension_spec.
Print Assumptions forget_dimension_valid.
Print Assumptions check_diagrams_spec.
Print Assumptions check_diagrams_exceptions.
Print Assumptions check_diagrams_all_dimensions_refuted.
