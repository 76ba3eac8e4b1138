(** Theorems about height, radial and density filtrations: C35, C36, C37. *)
From Coq Require Import Reals Lra.
From Verif Require Import Np NpFacts Nd NdFacts Fl VecModel SliceFacts RNp RNormFacts FeatModel ImgModel ImgModel2 ImgSpec ImgSpec2 ImgProofs2 ImgProofs3 ImgProofs4 ImgProofs5 ImgProofs6 ImgThms.
Open Scope Z_scope.

(** ** C35: HeightFiltration.  An activated pixel gets its distance to the
    supporting hyperplane; every other pixel gets one more than the largest such
    distance in the image. *)
Theorem height_filtration_spec direction s X :
  images s X -> 2 <= zlen s <= 3 -> (forall n, In n s -> 0 < n) ->
  let d := match direction with None => map (fun _ => 1%R) s | Some d => d end in
  zlen d = zlen s -> (exists a, In a d /\ a <> 0%R) ->
  exists u M f, unit_of d u /\
    (exists p h, inside s p = true /\ is_height s u p h /\ M = (h + 1)%R) /\
    (forall p h, inside s p = true -> is_height s u p h -> (h <= M - 1)%R) /\
    forall Y n_jobs, images s Y -> 1 <= n_jobs ->
      height_filtration direction n_jobs X Y = Ok (map f Y) /\
      forall y, In y Y -> nshape (f y) = s /\
        forall p v, nget y p = Some v ->
          (v <> 0 -> exists h, nget (f y) p = Some (Some h) /\ is_height s u p h) /\
          (v = 0 -> nget (f y) p = Some (Some M)).
Proof.
  intros HX HL HP d LD ND. destruct (fit_height_ok direction s X HX HL HP LD ND) as [u [M [HU [LU [E [H1 H2]]]]]].
  exists u, M, (height_of (meshgrid (ranges_of u (swap01 s))) u M). split; [assumption|]. split; [assumption|]. split; [assumption|].
  intros Y n_jobs [NY HY] HJ. split.
  - unfold height_filtration. rewrite E. cbn [bind]. apply parallel_map; [assumption|assumption|]. intros b Hb HI. apply mapM_Ok. intros y Hy. apply calculate_height_ok; try assumption. now apply HY, HI.
  - intros y Hy. destruct (HY y Hy) as [W S]. split; [exact S|]. intros p v Hv. now apply height_of_spec.
Qed.
(** The distance is unique, non-negative, and grows by the inner product along
    a displacement. *)
Theorem height_properties s u p v :
  inside s p = true -> is_height s u p v ->
  (0 <= v)%R /\ (forall v', is_height s u p v' -> v' = v) /\
  (forall p' v', is_height s u p' v' -> (v' - v = inner (coords p') u - inner (coords p) u)%R).
Proof.
  intros I H. split; [now apply (is_height_nonneg s u p)|]. split; [intros v' H'; symmetry; now apply (is_height_functional s u p)|].
  intros p' v' [q' [I' [M' ->]]]. destruct H as [q [I0 [M ->]]]. pose proof (M q' I'). pose proof (M' q I0). lra.
Qed.
(** Finding: one-dimensional images are accepted by the dimension check and then
    fail. *)
Theorem height_1d_refuted direction n_jobs n X Y : images [n] X -> height_filtration direction n_jobs X Y = Err IndexError.
Proof. intros HX. unfold height_filtration, fit_height. rewrite (fit_shape_ok [n] X HX) by (change (zlen [n]) with 1; lia). reflexivity. Qed.

(** ** C36: RadialFiltration, for binary images and a non-negative metric. *)
Theorem radial_filtration_spec (metric : list R -> list R -> R) center radius s X :
  images s X -> 2 <= zlen s <= 3 -> (forall n, In n s -> 0 < n) ->
  (forall a b, (0 <= metric a b)%R) -> (match radius with Some r => (0 < r)%R | None => True end) ->
  let c := match center with None => map (fun _ => 0) s | Some c => c end in
  zlen c = zlen s ->
  let dist p := metric (map IZR c) (map IZR (coords p)) in
  exists M f,
    (forall p, inside s p = true -> within (dist p) radius -> (dist p <= M - 1)%R) /\
    ((exists p, inside s p = true /\ within (dist p) radius /\ M = (dist p + 1)%R) \/
     ((forall p, inside s p = true -> ~ within (dist p) radius) /\ M = 1%R)) /\
    forall Y n_jobs, images s Y -> (forall y, In y Y -> binary y) -> 1 <= n_jobs ->
      radial_filtration metric center radius n_jobs X Y = Ok (map f Y) /\
      forall y, In y Y -> nshape (f y) = s /\
        forall p v, nget y p = Some v ->
          (v = 1 -> within (dist p) radius -> nget (f y) p = Some (XFin (dist p))) /\
          (v = 0 \/ ~ within (dist p) radius -> nget (f y) p = Some (XFin M)).
Proof.
  intros HX HL HP HM HR c LC dist. destruct (fit_radial_ok metric center radius s X HX HL HP HM HR LC) as [M [E [H1 H2]]].
  exists M, (radial1 (dmesh metric c radius s) M). split; [assumption|]. split; [assumption|]. intros Y n_jobs [NY HY] HB HJ. split.
  - unfold radial_filtration. rewrite E. cbn [bind fst snd]. apply parallel_map; [assumption|assumption|]. intros b Hb HI. apply mapM_Ok. intros y Hy. apply calculate_radial_ok; try assumption. now apply HY, HI.
  - intros y Hy. destruct (HY y Hy) as [W S]. split; [exact (points_shape s HL HP)|]. intros p v Hv. apply (radial1_spec metric c radius s M y p v); try assumption. now apply (HB y Hy p).
Qed.
Theorem radial_1d_refuted metric center radius n_jobs n X Y : images [n] X -> (match radius with Some r => (0 < r)%R | None => True end) ->
  radial_filtration metric center radius n_jobs X Y = Err IndexError.
Proof.
  intros HX HR. unfold radial_filtration, fit_radial. rewrite (fit_shape_ok [n] X HX) by (change (zlen [n]) with 1; lia). cbn [bind].
  assert (RO : radius_ok radius = true). { unfold radius_ok. destruct radius; [|reflexivity]. now destruct (Rlt_dec 0 r). }
  rewrite RO. reflexivity.
Qed.

(** ** C37: DensityFiltration: the sum over the ball around the pixel; nothing
    wraps around. *)
Theorem density_filtration_spec metric radius s X :
  images s X -> 2 <= zlen s <= 3 -> (0 < radius)%R -> proper_metric metric radius ->
  exists f, forall s' Y n_jobs, images s' Y -> zlen s' = zlen s -> 1 <= n_jobs ->
    density_filtration metric (Some radius) n_jobs X Y = Ok (map f Y) /\
    forall y, In y Y -> pixelwise (is_density metric radius y) y (f y).
Proof.
  intros HX HL HR PM. exists (density_of metric radius (rceil (metric [0%R] [radius])) (zlen s)). intros s' Y n_jobs HY LS HJ. split; [now apply (density_ok metric radius s X HX HL PM HR s')|].
  intros y Hy. destruct HY as [_ HY]. destruct (HY y Hy) as [W E]. rewrite <- LS. apply (density_of_ok metric radius s' y PM); [lia|assumption|assumption].
Qed.
(** For a binary image this counts the activated pixels of the ball. *)
Theorem density_counts metric radius x idx v :
  binary x -> is_density metric radius x idx v ->
  exists active, NoDup active /\ v = zlen active /\
    forall q, In q active <-> nget x q = Some 1 /\ (metric (point3 q) (point3 idx) <= radius)%R.
Proof.
  intros B [near [values [ND [HI [F ->]]]]]. exists (filter (fun q => match nget x q with Some v => v =? 1 | None => false end) near). split; [now apply NoDup_filter|]. split.
  - clear HI ND. induction F as [|q u near values Hu F IH]; [reflexivity|]. cbn [fold_right filter]. rewrite IH, Hu. destruct (B q u Hu) as [->| ->]; [reflexivity|]. change (1 =? 1) with true. cbv iota. rewrite zlen_cons. lia.
  - intros q. rewrite filter_In, HI. split.
    + intros [[I M] E]. split; [|assumption]. destruct (nget x q); [|discriminate]. apply Z.eqb_eq in E. now subst.
    + intros [E M]. split; [split; [now apply at_inside in E|assumption]|]. now rewrite E.
Qed.
(** The Euclidean, Manhattan, Chebyshev and other Minkowski metrics qualify. *)
Theorem minkowski_proper p radius : (match p with Pfin p => 1 <= p | Pinf => True end)%R -> (0 < radius)%R -> proper_metric (mink p) radius.
Proof. exact (mink_proper p radius). Qed.
(** Findings: admissible inputs that fail: one-dimensional images and an
    infinite radius. *)
Theorem density_1d_refuted metric radius n_jobs n X Y : images [n] X -> density_filtration metric radius n_jobs X Y = Err ValueError.
Proof.
  intros HX. unfold density_filtration, fit_density. rewrite (fit_shape_ok [n] X HX) by (change (zlen [n]) with 1; lia). cbn [bind]. destruct (radius_ok radius); [|reflexivity]. cbn [negb].
  destruct radius as [r|]; [|reflexivity]. destruct (rceil _ <? 0); reflexivity.
Qed.
Theorem density_infinite_radius_refuted metric n_jobs s X Y : images s X -> 1 <= zlen s <= 3 -> density_filtration metric None n_jobs X Y = Err ValueError.
Proof. intros HX HL. unfold density_filtration, fit_density. now rewrite (fit_shape_ok s X HX). Qed.

(** ** C26 for images: the number of jobs is irrelevant, also for errors. *)
Lemma parallel_mapM {A B} (f : A -> res B) n_jobs X : 1 <= n_jobs -> X <> [] -> parallel (fun b => mapM f b) n_jobs X = mapM f X.
Proof.
  intros HJ HX. unfold parallel. destruct X as [|x0 X0] eqn:EX; [easy|]. rewrite <- EX in *. clear EX.
  transitivity (mapM f (concat (map (fun s => take_slice s X) (gen_even_slices (zlen X) n_jobs)))); [|now rewrite (even_slices_concat X n_jobs HJ)].
  rewrite <- (mapM_map (fun b => mapM f b) (fun s => take_slice s X)).
  generalize (map (fun s => take_slice s X) (gen_even_slices (zlen X) n_jobs)). intros L. induction L as [|b L IH]; [reflexivity|]. cbn [concat mapM]. rewrite mapM_app, <- IH.
  destruct (mapM f b); [|reflexivity]. cbn [bind]. destruct (mapM (fun b => mapM f b) L); reflexivity.
Qed.
Lemma checked_mapM {A B} (P : A -> bool) (Q : bool) (g : A -> B) e b : b <> [] ->
  (if forallb P b && Q then Ok (map g b) else Err e) = mapM (fun x => if P x && Q then Ok (g x) else Err e) b.
Proof.
  intros N. destruct Q.
  - rewrite andb_true_r. clear N. induction b as [|x b IH]; [reflexivity|]. cbn [forallb mapM map]. rewrite andb_true_r, <- IH. destruct (P x); [|reflexivity]. cbn [andb]. destruct (forallb P b); reflexivity.
  - rewrite andb_false_r. destruct b; [easy|]. cbn [mapM]. now rewrite andb_false_r.
Qed.
Lemma parallel_ext {A B} (f g : list A -> res (list B)) n_jobs X : 1 <= n_jobs ->
  (forall b, b <> [] -> f b = g b) -> parallel f n_jobs X = parallel g n_jobs X.
Proof.
  intros HJ H. unfold parallel. destruct X as [|x0 X0] eqn:EX; [easy|]. rewrite <- EX in *. clear EX. f_equal. apply mapM_ext. intros s Hs. apply H. now apply (even_slices_nonempty X n_jobs).
Qed.
Theorem image_jobs j j' s' :
  1 <= j -> 1 <= j' ->
  (forall n X Y, images s' Y -> dilation_filtration n j X Y = dilation_filtration n j' X Y) /\
  (forall n X Y, images s' Y -> erosion_filtration n j X Y = erosion_filtration n j' X Y) /\
  (forall n X Y, images s' Y -> signed_distance_filtration n j X Y = signed_distance_filtration n j' X Y) /\
  (forall direction X Y, images s' Y -> height_filtration direction j X Y = height_filtration direction j' X Y) /\
  (forall metric center radius X Y, images s' Y -> radial_filtration metric center radius j X Y = radial_filtration metric center radius j' X Y) /\
  (forall metric radius X Y, images s' Y -> density_filtration metric radius j X Y = density_filtration metric radius j' X Y) /\
  (forall t X Y, images s' Y -> binarizer t j X Y = binarizer t j' X Y) /\
  (forall mv X Y, images_b s' Y -> inverter mv j X Y = inverter mv j' X Y) /\
  (forall A p (v : A) X Y, images s' Y -> padder p v j X Y = padder p v j' X Y) /\
  (forall X Y, images s' Y -> image_to_point_cloud j X Y = image_to_point_cloud j' X Y).
Proof.
  intros HJ HJ'.
  assert (EQ : forall A B (f : list A -> res (list B)) (g : A -> B) (X : list A), X <> [] -> (forall b, b <> [] -> incl b X -> f b = Ok (map g b)) -> parallel f j X = parallel f j' X).
  { intros A B f g X NX H. rewrite !(parallel_map f g) by assumption. reflexivity. }
  assert (NE : forall A B (f : A -> B) X, X <> [] -> map f X <> []) by (intros A B f [|? ?]; easy).
  repeat match goal with |- _ /\ _ => split end.
  - intros n X Y [NY HY]. unfold dilation_filtration. destruct (fit_iterations n X) as [f|]; [|reflexivity]. cbn [bind]. eapply EQ; [assumption|]. intros b _ HI. unfold calculate_dilation.
    rewrite dilate_map by (intros x Hx; now apply HY, HI). now rewrite map_map.
  - intros n X Y [NY HY]. unfold erosion_filtration. destruct (fit_iterations n X) as [f|]; [|reflexivity]. cbn [bind]. eapply EQ; [assumption|]. intros b _ HI. unfold calculate_erosion, erode.
    rewrite dilate_map by (intros x Hx; apply in_map_iff in Hx; destruct Hx as [z [<- Hz]]; now apply wf_not, HY, HI). now rewrite !map_map.
  - intros n X Y [NY HY]. unfold signed_distance_filtration. destruct (fit_iterations n X) as [f|]; [|reflexivity]. cbn [bind]. eapply EQ; [assumption|]. intros b _ HI. f_equal. apply signed_map. intros x Hx; now apply HY, HI.
  - intros direction X Y [NY HY]. unfold height_filtration. destruct (fit_height direction X) as [[[mesh d] m]|]; [|reflexivity]. cbn [bind]. now rewrite !parallel_mapM.
  - intros metric center radius X Y [NY HY]. unfold radial_filtration. destruct (fit_radial metric center radius X) as [f|]; [|reflexivity]. cbn [bind]. now rewrite !parallel_mapM.
  - intros metric radius X Y [NY HY]. unfold density_filtration. destruct (fit_density metric radius X) as [f|]; [|reflexivity]. cbn [bind].
    match goal with |- context [pad_batch ?p ?v 1 ?Z] => destruct (pad_batch p v 1 Z) as [Xt|] eqn:EP end; [|reflexivity]. cbn [bind].
    assert (NX : Xt <> []).
    { intros ->. unfold pad_batch in EP. rewrite (parallel_ext _ (fun b => mapM (fun x => if (zlen (nshape x) =? zlen (map (fun d : Z => if d <? df_ndim f then df_size f else 0) [0; 1; 2])) && forallb (fun p : Z => 0 <=? p) (map (fun d : Z => if d <? df_ndim f then df_size f else 0) [0; 1; 2]) then Ok (np_pad (map (fun d : Z => if d <? df_ndim f then df_size f else 0) [0; 1; 2]) 0 x) else Err ValueError) b)) in EP; [|lia|].
      - rewrite parallel_mapM in EP; [|lia|now apply NE]. apply mapM_Ok_inv in EP. destruct Y; [contradiction|]. inversion EP.
      - intros b Hb. now rewrite <- checked_mapM. }
    rewrite !parallel_ok by assumption. reflexivity.
  - intros t X Y [NY HY]. unfold binarizer. destruct (fit_shape X); [|reflexivity]. cbn [bind]. destruct (_ || _); [reflexivity|]. destruct (batch_max X); [|reflexivity]. cbn [bind]. now rewrite !parallel_ok.
  - intros mv X Y HY. unfold inverter. destruct (fit_inverter mv X) as [m|]; [|reflexivity]. cbn [bind]. destruct Y as [Y|Y]; destruct HY as [NY HY]; unfold invert; destruct m as [|[]|q]; try reflexivity; now rewrite !parallel_ok.
  - intros A p v X Y [NY HY]. unfold padder. destruct (fit_padder p X) as [q|]; [|reflexivity]. cbn [bind]. unfold pad_batch.
    rewrite (parallel_ext _ (fun b => mapM (fun x => if (zlen (nshape x) =? zlen q) && forallb (fun p : Z => 0 <=? p) q then Ok (np_pad q v x) else Err ValueError) b)); [|assumption|intros b Hb; now rewrite <- checked_mapM].
    rewrite (parallel_ext _ (fun b => mapM (fun x => if (zlen (nshape x) =? zlen q) && forallb (fun p : Z => 0 <=? p) q then Ok (np_pad q v x) else Err ValueError) b) j'); [|assumption|intros b Hb; now rewrite <- checked_mapM].
    now rewrite !parallel_mapM.
  - intros X Y [NY HY]. unfold image_to_point_cloud. destruct (fit_shape X); [|reflexivity]. cbn [bind]. destruct (forallb _ Y); [|reflexivity]. now rewrite !parallel_ok by auto.
Qed.

(** ** Examples: the hypotheses hold for the images of ImgThms. *)
Example ex_height_hyp : images [3; 4] [ex_img] /\ 2 <= zlen [3; 4] <= 3 /\ (forall n, In n [3; 4] -> 0 < n) /\
  zlen [1%R; (-2)%R] = zlen [3; 4] /\ (exists a, In a [1%R; (-2)%R] /\ a <> 0%R).
Proof.
  split; [apply ex_images|]. split; [change (zlen [3; 4]) with 2; lia|]. split; [intros n [<-|[<-|[]]]; lia|]. split; [reflexivity|]. exists 1%R. split; [now left|lra].
Qed.
Example ex_height_hyp3 : images [2; 2; 2] [ex_img3] /\ 2 <= zlen [2; 2; 2] <= 3 /\ (forall n, In n [2; 2; 2] -> 0 < n) /\ (forall a b, (0 <= mink (Pfin 2) a b)%R).
Proof. split; [apply ex_images|]. split; [change (zlen [2; 2; 2]) with 3; lia|]. split; [intros n [<-|[<-|[<-|[]]]]; lia|]. apply mink_nonneg. Qed.
(** For the image with activated pixels (1, 1) and (2, 3), in (row, column): with
    direction (0, -1) the height of a pixel in row r is 2 - r. *)
Example ex_is_height r c : 0 <= r < 3 -> 0 <= c < 4 -> is_height [3; 4] [0%R; (-1)%R] [r; c] (2 - IZR r).
Proof.
  intros Hr Hc. exists [2; 0]. split; [reflexivity|]. split.
  - intros q I. pose proof (inside_length _ _ I) as L. destruct q as [|a [|b [|? ?]]]; try discriminate L. apply inside_cons in I. destruct I as [Ia _]. cbn [coords inner]. assert (IZR a <= 2)%R by (apply IZR_le; lia). lra.
  - cbn [coords inner]. lra.
Qed.
(** With the Chebyshev distance and radius 1 the density at (1, 2) is 2. *)
Example ex_is_density : is_density (mink Pinf) 1 ex_img [1; 2] 2.
Proof.
  exists [[0; 1]; [0; 2]; [0; 3]; [1; 1]; [1; 2]; [1; 3]; [2; 1]; [2; 2]; [2; 3]], [0; 0; 0; 1; 0; 0; 0; 0; 1].
  assert (D : forall r c, (mink Pinf (point3 [r; c]) (point3 [1%Z; 2%Z]) <= 1)%R <-> Z.abs (r - 1) <= 1 /\ Z.abs (c - 2) <= 1).
  { intros r c. unfold mink, vsub, norm. cbn [point3 combine map fst snd rmax fold_right].
    rewrite <- !minus_IZR, <- !abs_IZR. change (Z.abs (0 - 0)) with 0. rewrite (Rmax_left 0 0) by lra. split.
    - intros H. split; apply le_IZR; (eapply Rle_trans; [|exact H]); [eapply Rle_trans; [|apply Rmax_r]; apply Rmax_l|apply Rmax_l].
    - intros [H1 H2]. apply IZR_le in H1, H2. apply Rmax_lub; [assumption|]. apply Rmax_lub; [assumption|lra]. }
  split; [|split; [|split]].
  - repeat constructor; cbn [In]; intros C; repeat (destruct C as [C|C]; [discriminate|]); exact C.
  - intros q. split.
    + intros H. cbn [In] in H. repeat (destruct H as [<-|H]; [split; [reflexivity|apply D; lia]|]). destruct H.
    + intros [I M]. pose proof (inside_length _ _ I) as L. destruct q as [|r [|c [|? ?]]]; try discriminate L. apply D in M. apply inside_cons in I. destruct I as [Hr I]. apply inside_cons in I. destruct I as [Hc _].
      assert (E1 : r = 0 \/ r = 1 \/ r = 2) by lia. assert (E2 : c = 1 \/ c = 2 \/ c = 3) by lia. destruct E1 as [->|[->| ->]], E2 as [->|[->| ->]]; cbn [In]; tauto.
  - repeat constructor.
  - reflexivity.
Qed.

(** Every image transformer refuses, when fitted, an empty collection and images without
    axes or with more than three. *)
Theorem image_dimensions_refused (X Y : list (nd Z)) (Q Q' : list (nd Qc)) (P P' : list (nd bool)) (m : max_param) n_jobs :
  (X = [] \/ exists x, nth_error X 0 = Some x /\ (nshape x = [] \/ 3 < zlen (nshape x))) ->
  (forall n, dilation_filtration n n_jobs X Y = Err ValueError /\ erosion_filtration n n_jobs X Y = Err ValueError /\
             signed_distance_filtration n n_jobs X Y = Err ValueError) /\
  (forall d, height_filtration d n_jobs X Y = Err ValueError) /\
  (forall metric c r, radial_filtration metric c r n_jobs X Y = Err ValueError) /\
  (forall metric r, density_filtration metric r n_jobs X Y = Err ValueError) /\
  (forall padding value, padder padding value n_jobs X Y = Err ValueError) /\
  image_to_point_cloud n_jobs X Y = Err ValueError /\
  (map nshape Q = map nshape X -> (forall t, binarizer t n_jobs Q Q' = Err ValueError) /\
     inverter m n_jobs (BNum Q) (BNum Q') = Err ValueError) /\
  (map nshape P = map nshape X -> inverter m n_jobs (BBool P) (BBool P') = Err ValueError).
Proof.
  intros H.
  assert (G : forall {A} (U : list (nd A)), map nshape U = map nshape X -> fit_shape U = Err ValueError).
  { intros A U E. destruct U as [|u U]; [reflexivity|]. destruct X as [|x X']; [discriminate|]. destruct H as [|[x' [E' H]]]; [discriminate|].
    injection E' as <-. injection E as E _. unfold fit_shape. rewrite E. destruct H as [->|H]; [reflexivity|].
    rewrite (proj2 (Z.ltb_lt 3 _) H). now rewrite orb_true_r. }
  unfold dilation_filtration, erosion_filtration, signed_distance_filtration, fit_iterations, height_filtration, fit_height, radial_filtration, fit_radial,
    density_filtration, fit_density, padder, fit_padder, image_to_point_cloud, binarizer, inverter, fit_inverter.
  rewrite !(G _ X eq_refl). cbn [bind]. repeat (split; [easy|]). split; intros E; rewrite !(G _ _ E); cbn [bind]; easy.
Qed.
Example image_dimensions_case : exists x, nth_error [Nd [1; 1; 1; 1] [1]; ex_img] 0 = Some x /\ (nshape x = [] \/ 3 < zlen (nshape x)).
Proof. eexists. split; [reflexivity|]. now right. Qed.

Print Assumptions image_dimensions_refused.
Print Assumptions height_filtration_spec.
Print Assumptions height_properties.
Print Assumptions height_1d_refuted.
Print Assumptions radial_filtration_spec.
Print Assumptions radial_1d_refuted.
Print Assumptions density_filtration_spec.
Print Assumptions density_counts.
Print Assumptions minkowski_proper.
Print Assumptions density_1d_refuted.
Print Assumptions density_infinite_radius_refuted.
Print Assumptions image_jobs.
