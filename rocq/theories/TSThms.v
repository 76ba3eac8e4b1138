(** Property theorems for gtda.time_series (C01-C08). *)
From Verif Require Import Np NpFacts Fl FlFacts TSModel TSSpec TSProofs.
Open Scope Z_scope.

(** ** C01  Sliding windows are exact slices ending at the last value *)
Theorem sliding_window_transform_spec :
  forall (A : Type) (X : list A) (size stride : Z),
    1 <= size -> 1 <= stride ->
    (zlen X < size -> sw_transform size stride X = Err ValueError) /\
    (size <= zlen X ->
       exists W, sw_transform size stride X = Ok W /\
         zlen W = (zlen X - size) / stride + 1 /\
         forall i, 0 <= i < zlen W -> exists w, Znth W i = Some w /\
           is_run X ((zlen X - size) mod stride + i * stride) size w /\
           (i = zlen W - 1 -> Znth w (size - 1) = Znth X (zlen X - 1))).
Proof. exact @sw_transform_full. Qed.

(** [slice_windows] reports the half-open index range of each window. *)
Theorem slice_windows_spec :
  forall (A : Type) (X : list A) (size stride : Z),
    1 <= size -> 1 <= stride -> size <= zlen X ->
    exists S, slice_windows size stride X = Ok S /\
      zlen S = (zlen X - size) / stride + 1 /\
      forall i, 0 <= i < zlen S ->
        Znth S i = Some ((zlen X - size) mod stride + i * stride,
                         (zlen X - size) mod stride + i * stride + size).
Proof. exact @slice_windows_ok. Qed.

Example sliding_window_example :
  sw_transform 3 2 [10; 11; 12; 13; 14; 15] = Ok [[11; 12; 13]; [13; 14; 15]]
  /\ slice_windows 3 2 [10; 11; 12; 13; 14; 15] = Ok [(1, 4); (3, 6)].
Proof. split; vm_compute; reflexivity. Qed.

(** ** C02  SlidingWindow keeps X and y aligned (size >= 2) *)
Theorem sliding_window_alignment_size2 :
  forall (A B : Type) (X : list A) (y : list B) (size stride : Z),
    2 <= size -> 1 <= stride -> size <= zlen X -> zlen y = zlen X ->
    exists W yr, sw_transform_resample size stride X y = Ok (W, yr) /\
      zlen yr = zlen W /\
      forall i, 0 <= i < zlen W -> exists w a,
        Znth W i = Some w /\ is_run X a size w /\
        Znth yr i = Znth y (a + size - 1) /\ Znth yr i <> None.
Proof. exact @sw_alignment. Qed.

Example sliding_window_alignment_example :
  sw_transform_resample 3 2 [10; 11; 12; 13; 14; 15] [0; 1; 2; 3; 4; 5]
  = Ok ([[11; 12; 13]; [13; 14; 15]], [3; 5]).
Proof. vm_compute; reflexivity. Qed.

(** The full claim fails at the admissible value size = 1: every series gets
    as many windows as positions hit by the stride, but no label at all. *)
Theorem sliding_window_alignment_size1_refuted :
  forall (A B : Type) (X : list A) (y : list B) (stride : Z),
    1 <= stride -> 1 <= zlen X -> zlen y = zlen X ->
    exists W, sw_transform_resample 1 stride X y = Ok (W, []) /\ 1 <= zlen W.
Proof. exact @sw_size1. Qed.

(** The exact law: too short a series is rejected; otherwise y' is aligned with
    the windows (same length, label of each window's last time point) if and
    only if size >= 2. *)
Theorem sliding_window_alignment :
  forall (A B : Type) (X : list A) (y : list B) (size stride : Z),
    1 <= size -> 1 <= stride -> zlen y = zlen X ->
    (zlen X < size -> sw_transform_resample size stride X y = Err ValueError) /\
    (size <= zlen X ->
     exists W yr, sw_transform_resample size stride X y = Ok (W, yr) /\
       zlen W = (zlen X - size) / stride + 1 /\
       (forall i, 0 <= i < zlen W -> exists w, Znth W i = Some w /\
          is_run X ((zlen X - size) mod stride + i * stride) size w) /\
       ((zlen yr = zlen W /\
         forall i, 0 <= i < zlen W ->
           Znth yr i = Znth y ((zlen X - size) mod stride + i * stride + size - 1))
        <-> 2 <= size) /\
       (size = 1 -> yr = [])).
Proof.
  intros A B X y size stride H1 H2 Hy.
  destruct (sliding_window_transform_spec A X size stride H1 H2) as [E O]. split.
  - intros H. unfold sw_transform_resample, transform_resample. now rewrite (E H).
  - intros H. destruct (O H) as [W [EW [LW HW]]].
    exists W, (sw_resample size stride y). split.
    { unfold sw_transform_resample, transform_resample. now rewrite EW. }
    split; [assumption|]. split.
    { intros i Hi. destruct (HW i Hi) as [w [Hw [R _]]]. eauto. }
    destruct (Z.eq_dec size 1) as [->|Hs].
    + destruct (sliding_window_alignment_size1_refuted A B X y stride H2 H Hy) as [W' [E' L']].
      unfold sw_transform_resample, transform_resample in E'. rewrite EW in E'. cbn [bind] in E'.
      injection E' as -> E'. rewrite E'. split; [|reflexivity]. rewrite zlen_nil.
      split; [intros [G _]; lia|lia].
    + split; [|lia]. split; [lia|]. intros _.
      split; [rewrite sw_resample_len by lia; rewrite LW, Hy; reflexivity|]. intros i Hi.
      rewrite sw_resample_Znth by (rewrite ?Hy; lia). f_equal. rewrite Hy.
      pose proof (Z.div_mod (zlen X - size) stride ltac:(lia)). nia.
Qed.

(** ** C03  Takens embeddings are exact delayed copies *)
Theorem takens_embedding_spec :
  forall (A : Type) (X : list A) (t d s : Z) (elv : bool),
    1 <= t -> 1 <= d -> 1 <= s ->
    (zlen X < t * (d - 1) + 1 -> tde t d s elv X = Err ValueError) /\
    (t * (d - 1) + 1 <= zlen X ->
       exists W, tde t d s elv X = Ok W /\
         zlen W = (zlen X - t * (d - 1) - 1) / s + 1 /\
         forall i, 0 <= i < zlen W -> exists w, Znth W i = Some w /\
           is_delay_vector X
             ((if elv then (zlen X - t * (d - 1) - 1) mod s else 0) + i * s) t d w /\
           (elv = true -> i = zlen W - 1 -> Znth w (d - 1) = Znth X (zlen X - 1))).
Proof. exact @tde_full. Qed.

(** Collections: every sample is embedded on its own. *)
Theorem takens_collection_spec :
  forall (A : Type) (X : list (list A)) (t d s : Z) (elv : bool) R,
    takens_transform t d s elv X = Ok R ->
    zlen R = zlen X /\
    forall i x r, Znth X i = Some x -> Znth R i = Some r -> tde t d s elv x = Ok r.
Proof. exact @takens_collection. Qed.

(** Multivariate samples with [flatten=True]: coordinate c*d + j of vector i is
    coordinate j of the i-th delay vector of channel c. *)
Theorem takens_flatten_spec :
  forall (A : Type) (chans : list (list A)) (n t d s : Z) (elv : bool),
    1 <= t -> 1 <= d -> 1 <= s -> t * (d - 1) + 1 <= n ->
    chans <> [] -> (forall x, In x chans -> zlen x = n) ->
    exists W, tde_flatten t d s elv chans = Ok W /\
      zlen W = (n - t * (d - 1) - 1) / s + 1 /\
      forall i, 0 <= i < zlen W -> exists w, Znth W i = Some w /\
        zlen w = zlen chans * d /\
        forall c x, Znth chans c = Some x -> forall j, 0 <= j < d ->
          Znth w (c * d + j) = if elv
            then Znth x (n - 1 - (zlen W - 1 - i) * s - (d - 1 - j) * t)
            else Znth x (i * s + j * t).
Proof. exact @tde_flatten_ok. Qed.

Example takens_example :
  tde 2 3 2 true [10; 11; 12; 13; 14; 15; 16; 17] = Ok [[11; 13; 15]; [13; 15; 17]] /\
  tde 2 3 2 false [10; 11; 12; 13; 14; 15; 16; 17] = Ok [[10; 12; 14]; [12; 14; 16]] /\
  tde_flatten 1 2 1 true [[1; 2; 3]; [4; 5; 6]] = Ok [[1; 2; 4; 5]; [2; 3; 5; 6]].
Proof. repeat split; vm_compute; reflexivity. Qed.

(** ** C04  SingleTakensEmbedding keeps X and y aligned (dimension >= 2) *)
Theorem single_takens_alignment_dim2 :
  forall (A B : Type) (X : list A) (y : list B) (t d s : Z),
    1 <= t -> 2 <= d -> 1 <= s -> t * (d - 1) + 1 <= zlen X -> zlen y = zlen X ->
    exists W yr, ste_transform_resample t d s X y = Ok (W, yr) /\
      zlen yr = zlen W /\
      forall i, 0 <= i < zlen W -> exists w a,
        Znth W i = Some w /\ is_delay_vector X a t d w /\
        Znth yr i = Znth y (a + (d - 1) * t) /\ Znth yr i <> None.
Proof. exact @ste_alignment. Qed.

Example single_takens_alignment_example :
  ste_transform_resample 2 2 2 [10; 11; 12; 13; 14; 15] [0; 1; 2; 3; 4; 5]
  = Ok ([[11; 13]; [13; 15]], [3; 5]).
Proof. vm_compute; reflexivity. Qed.

(** The full claim fails at the admissible value dimension = 1. *)
Theorem single_takens_alignment_dim1_refuted :
  forall (A B : Type) (X : list A) (y : list B) (t s : Z),
    1 <= t -> 1 <= s -> 1 <= zlen X -> zlen y = zlen X ->
    exists W, ste_transform_resample t 1 s X y = Ok (W, []) /\ 1 <= zlen W.
Proof. exact @ste_dim1. Qed.

(** The exact law: too short a series is rejected; otherwise y' is aligned with
    the vectors (same length, label of each vector's last time point) if and
    only if dimension >= 2. *)
Theorem single_takens_alignment :
  forall (A B : Type) (X : list A) (y : list B) (t d s : Z),
    1 <= t -> 1 <= d -> 1 <= s -> zlen y = zlen X ->
    (zlen X < t * (d - 1) + 1 -> ste_transform_resample t d s X y = Err ValueError) /\
    (t * (d - 1) + 1 <= zlen X ->
     exists W yr, ste_transform_resample t d s X y = Ok (W, yr) /\
       zlen W = (zlen X - t * (d - 1) - 1) / s + 1 /\
       (forall i, 0 <= i < zlen W -> exists w, Znth W i = Some w /\
          is_delay_vector X ((zlen X - t * (d - 1) - 1) mod s + i * s) t d w) /\
       ((zlen yr = zlen W /\
         forall i, 0 <= i < zlen W ->
           Znth yr i = Znth y ((zlen X - t * (d - 1) - 1) mod s + i * s + (d - 1) * t))
        <-> 2 <= d) /\
       (d = 1 -> yr = [])).
Proof.
  intros A B X y t d s Ht Hd Hs Hy.
  destruct (takens_embedding_spec A X t d s true Ht Hd Hs) as [E O]. split.
  - intros H. unfold ste_transform_resample, transform_resample, ste_transform. now rewrite (E H).
  - intros H. destruct (O H) as [W [EW [LW HW]]].
    exists W, (ste_resample t d s y). split.
    { unfold ste_transform_resample, transform_resample, ste_transform. now rewrite EW. }
    split; [assumption|]. split.
    { intros i Hi. destruct (HW i Hi) as [w [Hw [R _]]]. eauto. }
    destruct (Z.eq_dec d 1) as [->|Hd1].
    + destruct (single_takens_alignment_dim1_refuted A B X y t s Ht Hs ltac:(lia) Hy) as [W' [E' L']].
      unfold ste_transform_resample, transform_resample, ste_transform in E'. rewrite EW in E'. cbn [bind] in E'.
      injection E' as -> E'. rewrite E'. split; [|reflexivity]. rewrite zlen_nil.
      split; [intros [G _]; lia|lia].
    + split; [|lia]. split; [lia|]. intros _.
      split; [rewrite ste_resample_len by lia; rewrite LW, Hy; reflexivity|]. intros i Hi.
      rewrite ste_resample_Znth by (rewrite ?Hy; lia). f_equal. rewrite Hy.
      pose proof (Z.div_mod (zlen X - t * (d - 1) - 1) s ltac:(lia)). nia.
Qed.
Example single_takens_alignment_dim1_example :
  ste_transform_resample 2 1 2 [10; 11; 12; 13] [0; 1; 2; 3] = Ok ([[11]; [13]], []) /\
  sw_transform_resample 1 2 [10; 11; 12; 13] [0; 1; 2; 3] = Ok ([[11]; [13]], []) /\
  ste_transform_resample 3 2 1 [10; 11; 12] [0; 1; 2] = Err ValueError.
Proof. vm_compute. auto. Qed.

(** ** C05  Labeller aligns features with future windows *)
Theorem labeller_alignment :
  forall (A B : Type) (func : list B -> fl) (X : list A) (y : list B) (size nf : Z),
    1 <= size -> 1 <= nf -> size <= zlen X -> nf <= zlen X -> zlen y = zlen X ->
    exists yr, lab_resample_reg func size nf y = Ok yr /\
      zlen (lab_transform size nf X) = zlen yr /\
      zlen yr = zlen X - Z.max nf (size - 1) /\
      forall i, 0 <= i < zlen yr -> exists t w,
        Znth (lab_transform size nf X) i = Znth X t /\ 0 <= t < zlen X /\
        is_run y (t + nf - (size - 1)) size w /\
        Znth yr i = Some (func w).
Proof. exact @labeller_align. Qed.

(** The classification target is the regression target followed by
    classification, position by position. *)
Theorem labeller_classification_alignment :
  forall (B : Type) (func : list B -> fl) (y : list B) (size nf : Z) ts c,
    1 <= size -> 1 <= nf ->
    lab_resample_cls func size nf ts y = Ok c ->
    exists v l, lab_values func size y = Ok v /\ lab_classify ts v = Ok l /\
      c = lab_cut size nf l /\
      lab_resample_reg func size nf y = Ok (lab_cut size nf v).
Proof. exact @labeller_cls. Qed.

Example labeller_alignment_example :
  let func := fun w : list Z => fz (fold_left Z.min w 100) in
  lab_transform 3 1 [0;1;2;3;4;5;6;7;8;9] = [1;2;3;4;5;6;7;8] /\
  lab_resample_reg func 3 1 [0;1;2;3;4;5;6;7;8;9] = Ok (map fz [0;1;2;3;4;5;6;7]) /\
  lab_transform 2 4 [0;1;2;3;4;5] = [0;1] /\
  lab_resample_reg func 2 4 [0;1;2;3;4;5] = Ok (map fz [3;4]).
Proof. repeat split; vm_compute; reflexivity. Qed.

(** ** C06  Labeller classes are well defined *)
Theorem labeller_classes :
  forall (ts vals : list fl),
    ts <> [] ->
    (forall t, In t ts -> isnan t = false) ->
    (forall v, In v vals -> isnan v = false) ->
    match lab_classify ts vals with
    | Ok labels =>
        zlen labels = zlen vals /\
        forall i v, Znth vals i = Some v ->
          exists k, Znth labels i = Some k /\
            forall k', in_class ts k' (fabs v) <-> k' = k
    | Err e =>
        e = ValueError /\
        exists v k k', In v vals /\ k <> k' /\
          in_class ts k (fabs v) /\ in_class ts k' (fabs v)
    end.
Proof. exact lab_classify_spec. Qed.

(** With sorted thresholds the second case cannot occur. *)
Theorem labeller_classes_sorted :
  forall (ts vals : list fl),
    ts <> [] ->
    (forall t, In t ts -> isnan t = false) ->
    (forall v, In v vals -> isnan v = false) ->
    (forall i j a b, 0 <= i <= j -> Znth ts i = Some a -> Znth ts j = Some b -> fle a b = true) ->
    exists labels, lab_classify ts vals = Ok labels.
Proof. exact lab_classify_sorted. Qed.

Example labeller_classes_example :
  lab_classify [fz 2; fz 5] [fz 1; fz (-7); fz 2; fz 4] = Ok [0; 2; 1; 1] /\
  lab_classify [fz 5; fz 2] [fz 1; fz 3] = Err ValueError.
Proof. split; vm_compute; reflexivity. Qed.

(** An empty list of percentiles, which the validator accepts (documented as a
    one-class task), raises IndexError. *)
Theorem labeller_empty_percentiles_refuted :
  forall vals, vals <> [] -> lab_classify [] vals = Err IndexError.
Proof. exact lab_classify_nil. Qed.

(** ** C07  Resampler and Stationarizer keep X and y aligned *)
Theorem resampler_alignment :
  forall (A B : Type) (X : list A) (y : list B) (period : Z),
    1 <= period -> zlen y = zlen X ->
    zlen (resampler_transform period X) = zlen (resampler_resample period y) /\
    zlen (resampler_transform period X) = (zlen X + period - 1) / period /\
    forall i, 0 <= i < zlen (resampler_transform period X) ->
      0 <= i * period < zlen X /\
      Znth (resampler_transform period X) i = Znth X (i * period) /\
      Znth (resampler_resample period y) i = Znth y (i * period).
Proof. exact @resampler_align. Qed.

Theorem stationarizer_alignment :
  forall (B : Type) (flog : fl -> fl) (X : list fl) (y : list B),
    1 <= zlen X -> zlen y = zlen X ->
    zlen (stationarize_return X) = zlen X - 1 /\
    zlen (stationarize_log flog X) = zlen X - 1 /\
    zlen (stationarize_resample y) = zlen X - 1 /\
    forall i a b, Znth X i = Some a -> Znth X (i + 1) = Some b ->
      Znth (stationarize_return X) i = Some (fdiv (fsub b a) b) /\
      Znth (stationarize_log flog X) i = Some (fsub (flog b) (flog a)) /\
      Znth (stationarize_resample y) i = Znth y (i + 1).
Proof. exact @stationarizer_align. Qed.

Example resampler_example :
  resampler_transform 3 [0;1;2;3;4;5;6] = [0;3;6] /\
  feqs (stationarize_return [fz 1; fz 2; fz 4]) [Fin (Q2Qc (1#2)); Fin (Q2Qc (1#2))] = true /\
  stationarize_resample [7; 8; 9] = [8; 9].
Proof. repeat split; vm_compute; reflexivity. Qed.

(** ** C08  Takens parameter search *)
Theorem takens_search_spec :
  forall (mi : Z -> Qc) (fnn : Z -> Z -> Z) (T D : Z),
    1 <= T -> 2 <= D ->
    exists t d, takens_optimal_parameters mi fnn T D = Ok (t, d) /\
      1 <= t <= T /\
      (forall t', 1 <= t' <= T -> (mi t <= mi t')%Qc) /\
      (forall t', 1 <= t' < t -> (mi t < mi t')%Qc) /\
      2 <= d <= D /\
      (forall d', 2 <= d' <= D -> (dim_score (fnn t) d <= dim_score (fnn t) d')%Qc) /\
      (forall d', 2 <= d' < d -> (dim_score (fnn t) d < dim_score (fnn t) d')%Qc).
Proof. exact takens_search_ok. Qed.

(** max_dimension = 1 passes validation but always raises. *)
Theorem takens_search_max_dimension_1_refuted :
  forall mi fnn T, 1 <= T -> takens_optimal_parameters mi fnn T 1 = Err ValueError.
Proof. exact takens_search_dim1. Qed.

Example takens_search_example :
  takens_optimal_parameters (fun t => Q2Qc (inject_Z ((t - 3) * (t - 3))))
    (fun _ d => (10 - d) * (10 - d)) 5 4 = Ok (3, 3).
Proof. vm_compute; reflexivity. Qed.

Print Assumptions sliding_window_transform_spec.
Print Assumptions slice_windows_spec.
Print Assumptions sliding_window_alignment_size2.
Print Assumptions sliding_window_alignment.
Print Assumptions sliding_window_alignment_size1_refuted.
Print Assumptions takens_embedding_spec.
Print Assumptions takens_collection_spec.
Print Assumptions takens_flatten_spec.
Print Assumptions single_takens_alignment_dim2.
Print Assumptions single_takens_alignment.
Print Assumptions single_takens_alignment_dim1_refuted.
Print Assumptions labeller_alignment.
Print Assumptions labeller_classification_alignment.
Print Assumptions labeller_classes.
Print Assumptions labeller_classes_sorted.
Print Assumptions labeller_empty_percentiles_refuted.
Print Assumptions resampler_alignment.
Print Assumptions stationarizer_alignment.
Print Assumptions takens_search_spec.
Print Assumptions takens_search_max_dimension_1_refuted.
