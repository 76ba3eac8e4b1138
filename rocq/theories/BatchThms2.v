(** Theorems for C90 about images, time series, graphs, rescalings and filter functions. *)
From Coq Require Import Reals Lra Permutation.
From Verif Require Import Np NpFacts Nd NdFacts Fl FlFacts DiagTypes RNp FeatModel SliceFacts ImgModel ImgModel2 ImgSpec ImgSpec2
  ImgProofs2 ImgProofs3 ImgThms ImgThms2 BatchSpec BatchThms.
From Verif Require DiagModel CurveModel StatModel GraphModel RescaleModel TSModel FilterModel FilterSpec FilterThms FilterThms2.
Open Scope Z_scope.
Open Scope list_scope.

(** Any fit, successful or not, followed by a map on blocks. *)
Lemma blocks_one_by_one {A B F} (fitted : res F) (f : F -> list A -> res (list B)) (g : F -> A -> res B) (valid : list A -> Prop) :
  (forall Y, valid Y -> Y <> []) ->
  (forall x Y b, valid Y -> b <> [] -> incl b Y -> f x b = mapM (g x) b) ->
  sample_by_sample_or_raise valid (fun j Y => do x <- fitted; parallel (f x) j Y).
Proof.
  intros NE H. destruct fitted as [x|e].
  - exists (g x). intros j Y Hj HY. cbn [bind]. rewrite one_by_one_mapM. rewrite <- (parallel_mapM (g x) j Y Hj (NE Y HY)).
    unfold parallel. destruct Y as [|y0 Y0] eqn:EY; [reflexivity|]. rewrite <- EY in *. clear EY. f_equal. apply mapM_ext. intros s Hs.
    apply (H x Y); [assumption|now apply (even_slices_nonempty Y j); auto|now apply (take_slice_incl Y j)].
  - exists (fun _ => Err e). intros j Y Hj HY. cbn [bind]. pose proof (NE Y HY). destruct Y; [easy|reflexivity].
Qed.
Lemma mapM_total {A B} (g : A -> B) l : mapM (fun x => Ok (g x)) l = Ok (map g l).
Proof. now apply mapM_Ok. Qed.

(** Every image transformer, fitted on any X (also when fitting raises), on collections of images of
    one shape. *)
Theorem images_sample_by_sample s :
  (forall n X, sample_by_sample_or_raise (images s) (fun j => dilation_filtration n j X)) /\
  (forall n X, sample_by_sample_or_raise (images s) (fun j => erosion_filtration n j X)) /\
  (forall n X, sample_by_sample_or_raise (images s) (fun j => signed_distance_filtration n j X)) /\
  (forall direction X, sample_by_sample_or_raise (images s) (fun j => height_filtration direction j X)) /\
  (forall metric center radius X, sample_by_sample_or_raise (images s) (fun j => radial_filtration metric center radius j X)) /\
  (forall metric radius X, sample_by_sample_or_raise (images s) (fun j => density_filtration metric radius j X)) /\
  (forall t X, sample_by_sample_or_raise (images s) (fun j => binarizer t j X)) /\
  (forall A p (v : A) X, sample_by_sample_or_raise (images s) (fun j => padder p v j X)) /\
  (forall X, sample_by_sample_or_raise (images s) (fun j => image_to_point_cloud j X)).
Proof.
  assert (NE : forall A (Y : list (nd A)), images s Y -> Y <> []) by (intros A Y [N _]; exact N).
  assert (W : forall A (Y b : list (nd A)), images s Y -> incl b Y -> forall x, In x b -> wf x) by (intros A Y b [_ H] I x Hx; apply H; now apply I).
  repeat match goal with |- _ /\ _ => split end.
  - intros n X. apply (blocks_one_by_one (fit_iterations n X) (fun f b => Ok (calculate_dilation (fst f) (snd f) b))
      (fun f x => Ok (nmap (fun v => if v =? 0 then snd f else v - 1) (dil 1 (Z.min (fst f) (snd f)) 1 x)))); [apply NE|].
    intros f Y b HY _ HI. unfold calculate_dilation. rewrite dilate_map by (eapply W; eassumption). rewrite map_map, mapM_total. reflexivity.
  - intros n X. eapply (blocks_one_by_one (fit_iterations n X) (fun f b => Ok (calculate_erosion (fst f) (snd f) b)) (fun f x => Ok _)); [apply NE|].
    intros f Y b HY _ HI. unfold calculate_erosion, erode.
    rewrite dilate_map by (intros x Hx; apply in_map_iff in Hx; destruct Hx as [z [<- Hz]]; apply wf_not; eapply W; eassumption). rewrite !map_map, mapM_total. reflexivity.
  - intros n X. apply (blocks_one_by_one (fit_iterations n X) (fun f b => Ok (calculate_signed_distance (fst f) (snd f) b))
      (fun f x => Ok (signed (Z.min (fst f) (snd f)) (snd f) x))); [apply NE|].
    intros f Y b HY _ HI. rewrite signed_map by (eapply W; eassumption). now rewrite mapM_total.
  - intros d X. unfold height_filtration. destruct (fit_height d X) as [[[mesh dir] m]|e]; cbn [bind].
    + exists (calculate_height1 mesh dir m). intros j Y Hj HY. rewrite one_by_one_mapM. apply parallel_mapM; [assumption|now apply NE].
    + exists (fun _ => Err e). intros j Y _ [N _]. destruct Y; [easy|reflexivity].
  - intros metric c r X. apply (blocks_one_by_one (fit_radial metric c r X) (fun f b => mapM (calculate_radial1 (fst f) (snd f)) b) (fun f => calculate_radial1 (fst f) (snd f))); [apply NE|]. reflexivity.
  - intros metric r X. unfold density_filtration. destruct (fit_density metric r X) as [f|e]; cbn [bind].
    2:{ exists (fun _ => Err e). intros j Y _ [N _]. destruct Y; [easy|reflexivity]. }
    set (padding := map (fun d => if d <? df_ndim f then df_size f else 0) [0; 1; 2]).
    set (ok := (zlen (reshape3 s) =? zlen padding) && forallb (fun p => 0 <=? p) padding).
    exists (fun y => if ok then reshape (nshape y) (crop (df_size f) (df_ndim f) (calculate_density1 f (np_pad padding 0 (Nd (reshape3 (nshape y)) (ndata y))))) else Err ValueError).
    intros j Y Hj [N HY]. cbv zeta. rewrite one_by_one_mapM. unfold pad_batch.
    set (pre := fun y : nd Z => Nd (reshape3 (nshape y)) (ndata y)).
    rewrite (parallel_ext _ (fun b => mapM (fun x => if (zlen (nshape x) =? zlen padding) && forallb (fun p => 0 <=? p) padding then Ok (np_pad padding 0 x) else Err ValueError) b)); [|lia|intros b Hb; now rewrite <- checked_mapM].
    rewrite parallel_mapM; [|lia|destruct Y; easy]. rewrite mapM_map.
    rewrite (mapM_ext _ (fun y => if ok then Ok (np_pad padding 0 (pre y)) else Err ValueError)).
    2:{ intros y Hy. unfold ok, pre. cbn [nshape]. destruct (HY y Hy) as [_ ->]. reflexivity. }
    destruct ok.
    + rewrite mapM_total. cbn [bind]. rewrite parallel_ok by (try assumption; destruct Y; easy). cbn [bind]. rewrite map_map.
      clear N HY. induction Y as [|y Y IH]; [reflexivity|]. cbn [map combine mapM fst snd]. rewrite IH. reflexivity.
    + destruct Y; [easy|reflexivity].
  - intros t X. unfold binarizer. destruct (fit_shape X) as [sh|e]; cbn [bind].
    2:{ exists (fun _ => Err e). intros j Y _ [N _]. destruct Y; [easy|reflexivity]. }
    destruct (_ || _).
    { exists (fun _ => Err ValueError). intros j Y _ [N _]. destruct Y; [easy|reflexivity]. }
    eapply (blocks_one_by_one (batch_max X) (fun m b => Ok (map (nmap (fun v => flt (Fin t) (fdiv (Fin v) (Fin m)))) b)) (fun m x => Ok _)); [apply NE|].
    intros m Y b _ _ _. now rewrite mapM_total.
  - intros A p v X. eapply (blocks_one_by_one (fit_padder p X) (fun q b => if forallb (fun x => zlen (nshape x) =? zlen q) b && forallb (fun p => 0 <=? p) q then Ok (map (np_pad q v) b) else Err ValueError)); [apply NE|].
    intros q Y b _ Hb _. now apply checked_mapM.
  - intros X. unfold image_to_point_cloud. destruct (fit_shape X) as [sh|e]; cbn [bind].
    2:{ exists (fun _ => Err e). intros j Y _ [N _]. destruct Y; [easy|reflexivity]. }
    exists (fun y => if 2 <=? zlen (nshape y) then Ok (argwhere (swapaxes01 (flip0 y))) else Err ValueError).
    intros j Y Hj [N HY]. rewrite one_by_one_mapM.
    assert (E := checked_mapM (fun y => 2 <=? zlen (nshape y)) true (fun y : nd Z => argwhere (swapaxes01 (flip0 y))) ValueError Y N).
    rewrite andb_true_r in E. rewrite (mapM_ext _ (fun y => if (2 <=? zlen (nshape y)) && true then Ok (argwhere (swapaxes01 (flip0 y))) else Err ValueError)).
    2:{ intros y _. now rewrite andb_true_r. }
    rewrite <- E. destruct (forallb _ Y); [|reflexivity]. rewrite parallel_ok by (try assumption; destruct Y; easy). now rewrite map_map.
Qed.

(** The inverter: the kind of the output (Boolean or numeric) depends on the fitted maximum and the
    kind of the input only. *)
Theorem inverter_sample_by_sample mv X s :
  sample_by_sample_or_raise (images s) (fun j Y => do Z <- inverter mv j X (BBool Y); Ok match Z with BBool Z => map (nmap bq) Z | BNum Z => Z end) /\
  sample_by_sample_or_raise (images s) (fun j Y => do Z <- inverter mv j X (BNum Y); Ok match Z with BBool Z => map (nmap bq) Z | BNum Z => Z end).
Proof.
  unfold inverter. destruct (fit_inverter mv X) as [m|e]; cbn [bind].
  2:{ split; exists (fun _ => Err e); intros j Y _ [N _]; destruct Y; [easy|reflexivity|easy|reflexivity]. }
  split.
  - destruct m as [|[]|q]; cbn [invert].
    + exists (fun _ => Err NotFittedError). intros j Y _ [N _]. destruct Y; [easy|reflexivity].
    + exists (fun y => Ok (nmap bq (nmap negb y))). intros j Y Hj [N _]. rewrite parallel_ok by assumption. cbn [bind]. now rewrite map_map, one_by_one_mapM, mapM_total.
    + exists (fun _ => Err TypeError). intros j Y _ [N _]. destruct Y; [easy|reflexivity].
    + exists (fun y => Ok (nmap (fun v => (q - bq v)%Qc) y)). intros j Y Hj [N _]. rewrite parallel_ok by assumption. cbn [bind]. now rewrite one_by_one_mapM, mapM_total.
  - destruct m as [|[]|q]; cbn [invert].
    + exists (fun _ => Err NotFittedError). intros j Y _ [N _]. destruct Y; [easy|reflexivity].
    + exists (fun y => Ok (nmap bq (nmap (fun v => Qceqb v 0) y))). intros j Y Hj [N _]. rewrite parallel_ok by assumption. cbn [bind]. now rewrite map_map, one_by_one_mapM, mapM_total.
    + exists (fun y => Ok (nmap (fun v => (0 - v)%Qc) y)). intros j Y Hj [N _]. rewrite parallel_ok by assumption. cbn [bind]. now rewrite one_by_one_mapM, mapM_total.
    + exists (fun y => Ok (nmap (fun v => (q - v)%Qc) y)). intros j Y Hj [N _]. rewrite parallel_ok by assumption. cbn [bind]. now rewrite one_by_one_mapM, mapM_total.
Qed.

(** Time series, graphs and rescalings: non-empty collections. *)
Theorem series_and_graphs_sample_by_sample :
  (forall order, sample_by_sample (fun Y => Y <> []) (fun j Y => CurveModel.derivative_transform order j Y)) /\
  (forall argsort, sample_by_sample (fun Y => Y <> []) (fun j Y => StatModel.permutation_entropy argsort j Y)) /\
  (forall absolute d, sample_by_sample (fun Y => Y <> []) (fun _ Y => StatModel.pearson absolute Y d)) /\
  (forall A t d s elv, sample_by_sample_or_raise (fun _ => True) (fun _ (Y : list (list A)) => TSModel.takens_transform t d s elv Y)) /\
  (forall V (t : GraphModel.tg_fitted V), sample_by_sample_or_raise (fun _ => True) (fun _ Y => GraphModel.tg_transform t Y)) /\
  (forall P distances argsort k, sample_by_sample_or_raise (fun _ => True)
     (fun _ (Y : list P) => RescaleModel.consistent_transform distances argsort k Y)) /\
  (forall M shortest_path shape directed unweighted method, sample_by_sample_or_raise (fun Y => Y <> [])
     (fun _ Y => do r <- @GraphModel.geodesic_transform M shortest_path shape directed unweighted method Y; Ok (snd r))).
Proof.
  repeat match goal with |- _ /\ _ => split end.
  - intros order. eexists. intros j Y Hj N. unfold CurveModel.derivative_transform. now rewrite parallel_ok.
  - intros argsort. exists (StatModel.permutation_entropy1 argsort). intros j Y Hj N. unfold StatModel.permutation_entropy, StatModel.permutation_entropy_. now rewrite parallel_ok.
  - intros a d. exists (fun x => StatModel.pearson1 a x d). intros j Y _ N. destruct Y; [easy|reflexivity].
  - intros A t d s elv. eexists. intros j Y _ _. rewrite one_by_one_mapM. reflexivity.
  - intros V t. eexists. intros j Y _ _. rewrite one_by_one_mapM. reflexivity.
  - intros P ds ar k. eexists. intros j Y _ _. rewrite one_by_one_mapM. reflexivity.
  - intros M sp sh di un me. eexists. intros j Y _ N. rewrite one_by_one_mapM. unfold GraphModel.geodesic_transform.
    match goal with |- (do r <- (do Xt <- mapM ?f Y; _); _) = _ => destruct (mapM f Y) as [Xt|e] eqn:E; [|symmetry; exact E]; assert (HE : mapM f Y = Ok Xt) by exact E end.
    cbn [bind]. destruct Xt as [|x0 Xt]; [apply mapM_Ok_inv in E; destruct Y; [easy|inversion E]|]. cbn. now rewrite HE.
Qed.

(** Diagram preprocessing and the filter functions of Mapper (rows of an array of finite numbers). *)
Theorem filters_sample_by_sample :
  (forall scale, sample_by_sample (fun _ => True) (fun _ Y => Ok (DiagModel.scaler_transform scale Y))) /\
  (forall scale, sample_by_sample (fun _ => True) (fun _ Y => Ok (DiagModel.scaler_inverse_transform scale Y))) /\
  sample_by_sample (fun _ => True) (fun _ Y => Ok (DiagModel.forget_dimension Y)) /\
  (forall d, sample_by_sample (fun Y => exists T n, FilterSpec.finite_table Y T n d) (fun _ Y => FilterModel.entropy_filter Y)) /\
  (forall d cols, sample_by_sample_or_raise (fun Y => exists T n, FilterSpec.finite_table Y T n d) (fun _ Y => FilterModel.projection cols Y)) /\
  (forall d exponent, sample_by_sample_or_raise (fun Y => exists T n, FilterSpec.finite_table Y T n d) (fun _ Y => FilterModel.eccentricity exponent None Y)).
Proof.
  set (val := fun v : xr => match v with XFin r => r | _ => 0%R end).
  assert (V : forall T : list (list R), map (map val) (map (map XFin) T) = T).
  { intros T. rewrite map_map. rewrite <- (map_id T) at 2. apply map_ext. intros r. rewrite map_map. apply map_id. }
  repeat match goal with |- _ /\ _ => split end.
  - intros c. eexists. intros j Y _ _. reflexivity.
  - intros c. eexists. intros j Y _ _. reflexivity.
  - eexists. intros j Y _ _. reflexivity.
  - intros d. exists (fun row => [entropy2 (map Rabs (map val row))]). intros j Y _ [T [n F]]. unfold FilterModel.entropy_filter. rewrite (FilterThms.check_ok _ _ _ _ F). cbn [bind].
    rewrite FilterThms.abs_rows. destruct F as [_ ->]. rewrite !map_map. f_equal. apply map_ext. intros r. rewrite !map_map. reflexivity.
  - intros d cols. exists (fun row => mapM (py_get (map val row)) (FilterModel.column_list cols)). intros j Y _ [T [n F]]. rewrite (FilterThms2.projection_eq cols Y T n d F).
    rewrite (one_by_one_mapM _ Y). destruct F as [_ ->]. rewrite mapM_map. apply mapM_ext. intros r _. rewrite map_map. cbn. rewrite map_id. reflexivity.
  - intros d ex. exists (fun row => do r <- FilterModel.row_norm ex (map val row); Ok [r]). intros j Y _ [T [n F]]. unfold FilterModel.eccentricity. rewrite (FilterThms.check_ok _ _ _ _ F). cbn [bind].
    rewrite (one_by_one_mapM _ Y). destruct F as [_ ->]. rewrite mapM_map. apply mapM_ext. intros r _. rewrite map_map. cbn. rewrite map_id. reflexivity.
Qed.

(** ** Not sample by sample (findings) *)
(** Filtering pads to the largest number of remaining points of the collection: the row of a
    diagram depends on the other diagrams, and on its own the diagram has another shape. *)
Theorem filtering_sample_by_sample_refuted :
  let a := [Pt (fz 0) (fz 1) (fz 0); Pt (fz 0) (fz 4) (fz 0)] in
  let b := [Pt (fz 0) (fz 3) (fz 0); Pt (fz 0) (fz 5) (fz 0)] in
  exists r r1 r2, DiagModel.filter_diagrams [a; b] [fz 0] (fz 2) = Ok [r1; r2] /\
    DiagModel.filter_diagrams [a] [fz 0] (fz 2) = Ok [r] /\ zlen r1 = 2 /\ zlen r = 1.
Proof. do 3 eexists. split; [vm_compute; reflexivity|]. split; [vm_compute; reflexivity|]. now vm_compute. Qed.
(** Eccentricity of points (metric other than 'precomputed') sums over the rows of the collection. *)
Theorem eccentricity_sample_by_sample_refuted :
  ~ sample_by_sample (fun Y => exists T n, FilterSpec.finite_table Y T n 1)
      (fun _ Y => FilterModel.eccentricity FilterModel.OPinf (Some (fun u v => Rabs (hd 0%R u - hd 0%R v))) Y).
Proof.
  intros [g H].
  assert (F : forall T : list (list R), T <> [] -> (forall r, In r T -> zlen r = 1) -> exists T' n, FilterSpec.finite_table (map (map XFin) T) T' n 1).
  { intros T N L. exists T, (zlen T). split; [|reflexivity]. split; [destruct T; [easy|rewrite zlen_cons; pose proof (zlen_nonneg T); lia]|]. split; [lia|]. split; [reflexivity|assumption]. }
  assert (H1 := H 1 (map (map XFin) [[0%R]; [1%R]]) ltac:(lia) ltac:(apply F; [easy|intros r [<-|[<-|[]]]; reflexivity])).
  assert (H2 := H 1 (map (map XFin) [[0%R]; [2%R]]) ltac:(lia) ltac:(apply F; [easy|intros r [<-|[<-|[]]]; reflexivity])).
  cbn in H1, H2. injection H1 as E1 _. injection H2 as E2 _. rewrite <- E1 in E2. injection E2 as E.
  rewrite !Rabs_Rabsolu, !Rabs_R0 in E. replace (Rabs (0 - 1)) with 1%R in E by (rewrite Rabs_left; lra). replace (Rabs (0 - 2)) with 2%R in E by (rewrite Rabs_left; lra).
  rewrite (Rmax_left 1 0), (Rmax_left 2 0), (Rmax_right 0 1), (Rmax_right 0 2) in E by lra. lra.
Qed.

(** ** Examples *)
(** Two batches of images of the shape [3; 4] with different contents: the hypotheses hold and the
    filtration of the whole is the concatenation. *)
Example ex_batches :
  let y := ex_img in let z := nmap (fun v => 1 - v) ex_img in
  images [3; 4] [y] /\ images [3; 4] [z; y] /\ images [3; 4] ([y] ++ [z; y]) /\
  exists r r', dilation_filtration None 1 [y] [y] = Ok [r] /\ dilation_filtration None 2 [y] [z; y] = Ok [r'; r] /\
    dilation_filtration None 3 [y] ([y] ++ [z; y]) = Ok [r; r'; r] /\ r <> r'.
Proof.
  cbv zeta. assert (Wy : wf ex_img /\ nshape ex_img = [3; 4]) by (apply ex_images; now left).
  assert (Wz : wf (nmap (fun v => 1 - v) ex_img) /\ nshape (nmap (fun v => 1 - v) ex_img) = [3; 4]) by (split; [apply wf_nmap, Wy|reflexivity]).
  split; [split; [easy|intros x [<-|[]]; assumption]|]. split; [split; [easy|intros x [<-|[<-|[]]]; assumption]|].
  split; [split; [easy|intros x [<-|[<-|[<-|[]]]]; assumption]|]. do 2 eexists. split; [vm_compute; reflexivity|]. split; [vm_compute; reflexivity|]. split; [vm_compute; reflexivity|]. discriminate.
Qed.
Example ex_table : exists T n, FilterSpec.finite_table (map (map XFin) [[1%R; (-2)%R]; [0%R; 3%R]]) T n 2.
Proof. exists [[1%R; (-2)%R]; [0%R; 3%R]], 2. split; [|reflexivity]. split; [lia|]. split; [lia|]. split; [reflexivity|]. intros r [<-|[<-|[]]]; reflexivity. Qed.

Print Assumptions images_sample_by_sample.
Print Assumptions inverter_sample_by_sample.
Print Assumptions series_and_graphs_sample_by_sample.
Print Assumptions filters_sample_by_sample.
Print Assumptions filtering_sample_by_sample_refuted.
Print Assumptions eccentricity_sample_by_sample_refuted.
