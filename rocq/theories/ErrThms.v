(** What happens on inputs outside the scope of the other theorems: images, filters, correlation
    distances, intervals, colours and grids. *)
From Coq Require Import Ascii String Reals Lra.
From Verif Require Import Np NpFacts Fl FlFacts Nd NdFacts RNp ImgSpec.
From Verif Require ImgModel ImgModel2 ImgProofs4 ImgThms2 FilterModel StatModel IntervalModel ColorTypes ColorModel ColorSpec ColorThms RndModel.
Open Scope Z_scope.

(** ** Images *)
(** C36: images with less than two axes have no point cloud. *)
Theorem point_cloud_needs_two_axes n_jobs X Y y : In y Y -> zlen (nshape y) < 2 ->
  ImgModel.image_to_point_cloud n_jobs X Y = Err ValueError.
Proof.
  intros Hy H. unfold ImgModel.image_to_point_cloud. unfold ImgModel.fit_shape. destruct X as [|x X]; [reflexivity|]. destruct (_ || _); [reflexivity|]. cbn [bind].
  destruct (forallb _ Y) eqn:E; [|reflexivity]. rewrite forallb_forall in E. specialize (E y Hy). cbn in E. apply Z.leb_le in E. lia.
Qed.

(** A radius which is not positive is refused by both filtrations that have one. *)
Theorem nonpositive_radius_refused metric center r n_jobs X Y : (r <= 0)%R ->
  ImgModel2.radial_filtration metric center (Some r) n_jobs X Y = Err ValueError /\
  ImgModel2.density_filtration metric (Some r) n_jobs X Y = Err ValueError.
Proof.
  intros H. unfold ImgModel2.radial_filtration, ImgModel2.density_filtration, ImgModel2.fit_radial, ImgModel2.fit_density, ImgModel.fit_shape. destruct X as [|x X]; [now split|]. destruct (_ || _); [now split|]. cbn [bind]. unfold ImgModel2.radius_ok. destruct (Rlt_dec 0 r); [lra|]. now split.
Qed.

Lemma mapM_fails {A B} (f : A -> res B) l e : (forall x, In x l -> (exists y, f x = Ok y) \/ f x = Err e) ->
  (exists x, In x l /\ f x = Err e) -> mapM f l = Err e.
Proof.
  induction l as [|a l IH]; intros H [x [Hx E]]; [destruct Hx|]. cbn [mapM]. destruct Hx as [->|Hx]; [now rewrite E|].
  destruct (H a (or_introl eq_refl)) as [[y ->]| ->]; [|reflexivity]. cbn [bind]. rewrite IH; [reflexivity|intros; apply H; now right|eauto].
Qed.
(** HeightFiltration: an activated pixel outside the shape of the training images is an IndexError. *)
Theorem height_outside_refused direction s X : images s X -> 2 <= zlen s <= 3 -> (forall n, In n s -> 0 < n) ->
  let d := match direction with None => map (fun _ => 1%R) s | Some d => d end in
  zlen d = zlen s -> (exists a, In a d /\ a <> 0%R) ->
  forall Y n_jobs y p v, 1 <= n_jobs -> In y Y -> nget y p = Some v -> v <> 0 -> inside s p = false ->
  ImgModel2.height_filtration direction n_jobs X Y = Err IndexError.
Proof.
  intros HX HL HP d LD ND Y n_jobs y p v J Hy Hv Nz O. destruct (ImgProofs4.fit_height_ok direction s X HX HL HP LD ND) as [u [M [_ [LU [E _]]]]].
  unfold ImgModel2.height_filtration. rewrite E. cbn [bind]. set (mesh := ImgModel2.meshgrid _).
  assert (No : nget mesh p = None) by (unfold nget, mesh; now rewrite ImgProofs4.mesh_shape, O).
  rewrite ImgThms2.parallel_mapM; [|assumption|intros ->; destruct Hy]. apply mapM_fails.
  - intros z _. unfold ImgModel2.calculate_height1. destruct (forallb _ _); [left; eauto|now right].
  - exists y. split; [assumption|]. unfold ImgModel2.calculate_height1. destruct (forallb _ _) eqn:F; [|reflexivity]. rewrite forallb_forall in F. specialize (F p).
    rewrite No in F. assert (false = true); [|discriminate]. apply F. unfold ImgModel.argwhere. apply filter_In. rewrite Hv. split; [|unfold ImgModel.nonzero; destruct (Z.eqb_spec v 0); [contradiction|reflexivity]].
    apply In_indices. now apply at_inside in Hv.
Qed.
(** Not vacuous: a 2x3 image with a pixel which 2x2 training images do not have. *)
Example height_outside_example : exists (X : list (nd Z)) y, images [2; 2] X /\ nget y [0; 2] = Some 1 /\ inside [2; 2] [0; 2] = false.
Proof. exists [Nd [2; 2] [1; 0; 0; 1]], (Nd [2; 3] [0; 0; 1; 0; 0; 0]). split; [|now split]. split; [discriminate|]. intros x [<-|[]]. split; [|reflexivity]. split; [|reflexivity]. cbn. intuition lia. Qed.

(** ** Filter functions given by callables *)
(** Rows after the first one: a result with another number of entries, if it is not a single entry, is
    a ValueError. *)
Theorem callable_row_lengths {A} check (f : FilterModel.callable A) X x0 k0 l0 x k l :
  FilterModel.has_axis f = false -> hd_error X = Some x0 -> FilterModel.on_row f x0 = Ok (FilterModel.Vector k0 l0) ->
  (forall y, In y X -> exists k l, FilterModel.on_row f y = Ok (FilterModel.Vector k l)) ->
  In x X -> FilterModel.on_row f x = Ok (FilterModel.Vector k l) -> zlen l <> zlen l0 -> zlen l <> 1 ->
  FilterModel.transformer_from_callable check (Some f) false X = Err ValueError.
Proof.
  intros Ha Hx E0 All Hi E N0 N1. destruct X as [|x1 X]; [discriminate|]. injection Hx as ->. unfold FilterModel.transformer_from_callable. cbn [bind]. rewrite Ha. unfold FilterModel.apply_along_axis_1. rewrite E0. cbn [bind].
  rewrite (mapM_fails _ _ ValueError); [reflexivity| |].
  - intros y Hy. destruct (All y Hy) as [k' [l' ->]]. cbn [bind FilterModel.assign]. destruct (zlen l' =? zlen l0); [left; eauto|]. destruct l' as [|? [|? ?]]; eauto.
  - exists x. split; [assumption|]. rewrite E. cbn [bind FilterModel.assign]. destruct (Z.eqb_spec (zlen l) (zlen l0)); [contradiction|]. destruct l as [|? [|? ?]]; try reflexivity. now elim N1.
Qed.

(** ** Correlation distances *)
Theorem pearson_no_samples absolute_value d : StatModel.pearson absolute_value [] d = Err ValueError.
Proof. reflexivity. Qed.

(** ** Intervals: floor division by an infinity gives 0 or -1 at each end, depending on the signs. *)
Theorem interval_floordiv_infinite (a b : Qc) c (y : fl) : y = PInf \/ y = NInf ->
  let end_ (q : Qc) := if (if feq y PInf then Qcltb q 0 else Qcltb 0 q) then Fin (- (1))%Qc else Fin 0%Qc in
  IntervalModel.iv_floordiv (IntervalModel.MkInterval (Fin a) (Fin b) c) (IntervalModel.OReal y) =
  IntervalModel.interval_init (Some (end_ a)) (Some (end_ b)) (Some c).
Proof.
  intros [->| ->]; cbn; (replace (fz (-1)) with (Fin (- (1))%Qc) by (unfold fz; f_equal; now apply Qc_is_canon)); unfold f0; now destruct (Qcltb _ _), (Qcltb _ _).
Qed.

(** ** Colours: hexadecimal digits after the first six (the opacity) are ignored. *)
Theorem hex_opacity_ignored s t c : ColorSpec.hex_denotes s c -> ColorModel.hex_to_rgb (s ++ t)%string = Ok c.
Proof.
  intros [a0 [a1 [a2 [a3 [a4 [a5 [d0 [d1 [d2 [d3 [d4 [d5 [-> [H0 [H1 [H2 [H3 [H4 [H5 ->]]]]]]]]]]]]]]]]]]].
  destruct (ColorThms.hex_digit_ok _ _ H0) as [E0 N0]. unfold ColorModel.hex_to_rgb. cbn [string_of_list_ascii String.append ColorModel.lstrip_hash]. change (N_of_ascii "#"%char =? 35)%N with true. cbn iota.
  rewrite N0. cbn [substring ColorModel.int16 ColorModel.int16_from].
  assert (S0 : substring 0 0 t = ""%string) by now destruct t. rewrite ?S0. cbn [ColorModel.int16_from].
  rewrite E0, (proj1 (ColorThms.hex_digit_ok _ _ H1)), (proj1 (ColorThms.hex_digit_ok _ _ H2)), (proj1 (ColorThms.hex_digit_ok _ _ H3)), (proj1 (ColorThms.hex_digit_ok _ _ H4)), (proj1 (ColorThms.hex_digit_ok _ _ H5)).
  cbn [bind]. do 2 f_equal; lia.
Qed.
Example hex_opacity_example : ColorModel.hex_to_rgb "#1fA00580" = Ok (ColorTypes.T3 31 160 5).
Proof. reflexivity. Qed.

(** ** The grids of two axes, as they are computed with rounding: both ends are met, and the inner
    points are computed from the step, or, if the step of one of the axes vanishes, from the length. *)
Theorem grid_pair_formula (rnd : R -> R) (a0 a1 b0 b1 : R) n : 2 <= n ->
  let step p q := rnd (rnd (q - p) / IZR (n - 1))%R in
  let point p q i := rnd (rnd (IZR i * step p q) + p)%R in
  let point0 p q i := rnd (rnd (rnd (IZR i / IZR (n - 1)) * rnd (q - p)) + p)%R in
  exists l0 l1, RndModel.grid2 rnd (a0, a1) (b0, b1) n = (l0, l1) /\ zlen l0 = n /\ zlen l1 = n /\
  Znth l0 (n - 1) = Some b0 /\ Znth l1 (n - 1) = Some b1 /\
  forall i, 0 <= i < n - 1 ->
    (step a0 b0 <> 0%R -> step a1 b1 <> 0%R -> Znth l0 i = Some (point a0 b0 i) /\ Znth l1 i = Some (point a1 b1 i)) /\
    (step a0 b0 = 0%R \/ step a1 b1 = 0%R -> Znth l0 i = Some (point0 a0 b0 i) /\ Znth l1 i = Some (point0 a1 b1 i)).
Proof.
  intros Hn step point point0. unfold RndModel.grid2, RndModel.grid. cbn [fst snd]. rewrite (proj2 (Z.eqb_neq n 1)) by lia. do 2 eexists. split; [reflexivity|].
  rewrite !zlen_tabZ, !Znth_tabZ, Z.eqb_refl by lia. do 4 (split; [reflexivity|]). intros i Hi. rewrite !Znth_tabZ, (proj2 (Z.eqb_neq i (n - 1))) by lia.
  unfold RndModel.grid_offset, RndModel.is_zero. fold (step a0 b0) (step a1 b1). change (RndModel.grid_step rnd a0 b0 n) with (step a0 b0). change (RndModel.grid_step rnd a1 b1 n) with (step a1 b1).
  destruct (Req_EM_T (step a0 b0) 0) as [Z0|Z0], (Req_EM_T (step a1 b1) 0) as [Z1|Z1]; cbn [orb]; split; intros; try contradiction; try (split; reflexivity); try tauto.
Qed.

Print Assumptions point_cloud_needs_two_axes.
Print Assumptions nonpositive_radius_refused.
Print Assumptions height_outside_refused.
Print Assumptions callable_row_lengths.
Print Assumptions pearson_no_samples.
Print Assumptions interval_floordiv_infinite.
Print Assumptions hex_opacity_ignored.
Print Assumptions grid_pair_formula.
