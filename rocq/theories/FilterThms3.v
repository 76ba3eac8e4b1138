(** C65: callables on rows and method_to_transform; concrete cases for C64 and C65. *)
From Coq Require Import Reals Lra Permutation.
From Verif Require Import Np NpFacts Fl FlFacts RNp FeatModel FilterModel FilterSpec FilterThms FilterThms2 CurveThms2.
From Verif Require CoverProofs3 CoverModel.
Open Scope Z_scope.

(** ** Numbers stored in an array of a given type *)
Lemma qtrunc_stored q : ((0 <= q)%Qc -> (qz (CoverModel.qtrunc q) <= q)%Qc /\ (q < qz (CoverModel.qtrunc q + 1))%Qc) /\
  ((q < 0)%Qc -> (qz (CoverModel.qtrunc q - 1) < q)%Qc /\ (q <= qz (CoverModel.qtrunc q))%Qc).
Proof.
  split; [apply CoverProofs3.qtrunc_pos|]. intros H. rewrite <- qz_0 in H. apply CoverProofs3.Qc_num_lt in H. unfold CoverModel.qtrunc.
  set (n := Qnum q) in *. set (d := Zpos (Qden q)) in *. assert (Hd : 0 < d) by reflexivity.
  replace n with (- - n) by lia. rewrite Z.quot_opp_l by lia. rewrite Z.quot_div_nonneg by lia.
  pose proof (Z.div_mod (- n) d ltac:(lia)). pose proof (Z.mod_pos_bound (- n) d ltac:(lia)). split.
  - unfold Qclt. rewrite this_qz. unfold Qlt. unfold inject_Z; cbn [Qnum Qden]; fold n; fold d.
    nia.
  - unfold Qcle. rewrite this_qz. unfold Qle. unfold inject_Z; cbn [Qnum Qden]; fold n; fold d. nia.
Qed.
Lemma stored_int z : stored DInt (qz z) (qz z).
Proof.
  exists z. split; [reflexivity|]. split; intros _; split; try apply Qcle_refl; [rewrite qz_add|rewrite qz_sub]; rewrite qz_1; qlra.
Qed.
Lemma cast_stored d x : stored d (value_of x) (value_of (cast d x)).
Proof.
  destruct d, x as [b|z|q]; cbn [cast value_of stored].
  - destruct b; split; intros H; try reflexivity; [discriminate H|congruence].
  - destruct (Z.eqb_spec z 0) as [->|N]; cbn [negb]; split; intros H; try reflexivity.
    + now rewrite qz_0 in H.
    + rewrite <- qz_0 in H. now apply qz_inj in H.
  - destruct (Qceqb_spec q 0) as [E|E]; cbn [negb]; split; intros H; try reflexivity; contradiction.
  - destruct b; [rewrite <- qz_1|rewrite <- qz_0]; apply stored_int.
  - apply stored_int.
  - exists (CoverModel.qtrunc q). split; [reflexivity|]. apply qtrunc_stored.
  - destruct b; reflexivity.
  - reflexivity.
  - reflexivity.
Qed.
(** The number is stored unchanged iff the type can represent it. *)
Theorem stored_exact d q v : stored d q v -> (v = q <-> representable d q).
Proof.
  destruct d; cbn.
  - intros [A B]. destruct (Qc_eq_dec q 0) as [E|E]; [rewrite (A E), E; tauto|]. rewrite (B E). split; [intros <-; now right|]. intros [|]; [contradiction|congruence].
  - intros [z [-> [A B]]]. split; [intros <-; eauto|]. intros [k ->]. destruct (Qclt_le_dec (qz k) 0) as [H|H].
    + destruct (B H) as [B1 B2]. rewrite qz_lt in B1. rewrite qz_le in B2. f_equal. lia.
    + destruct (A H) as [A1 A2]. rewrite qz_le in A1. rewrite qz_lt in A2. f_equal. lia.
  - tauto.
Qed.
Lemma cast_same x : cast (dtype_of x) x = x. Proof. destruct x; reflexivity. Qed.

(** ** Callables without a parameter axis *)
Lemma assign_same r0 r : same_shape r0 r -> exists row, assign r0 r = Ok row /\
  Forall2 (fun q v => stored (result_dtype r0) q (value_of v)) (values_of r) row.
Proof.
  destruct r0 as [x0|d0 l0], r as [x|d l]; cbn [same_shape assign result_dtype values_of]; try easy.
  - intros _. eexists. split; [reflexivity|]. constructor; [apply cast_stored|constructor].
  - intros E. rewrite E, Z.eqb_refl. eexists. split; [reflexivity|]. clear E. induction l as [|a l IH]; cbn [map]; constructor; [apply cast_stored|assumption].
Qed.
Section Callables.
Context {A : Type}.
Variable check : list (list A) -> res (list (list A)).
(** If all results have the shape of the first one, row i of the output holds the numbers returned
    for row i, converted to the type of the FIRST result. *)
Theorem callable_rows f (validate : bool) X X' x0 r0 : has_axis f = false ->
  (if validate then check X else Ok X) = Ok X' -> Znth X' 0 = Some x0 -> on_row f x0 = Ok r0 ->
  (forall x, In x X' -> exists r, on_row f x = Ok r /\ same_shape r0 r) ->
  exists Y, transformer_from_callable check (Some f) validate X = Ok (New Y) /\
    Forall2 (fun x row => exists r, on_row f x = Ok r /\
      Forall2 (fun q v => stored (result_dtype r0) q (value_of v)) (values_of r) row) X' Y.
Proof.
  intros NA EC H0 E0 H. unfold transformer_from_callable. rewrite EC. cbn [bind]. rewrite NA. unfold apply_along_axis_1. destruct X' as [|x1 X1] eqn:EX; [discriminate|].
  rewrite <- EX in *. assert (x1 = x0) as -> by (subst; now injection H0). rewrite E0. cbn [bind]. clear H0 EX EC.
  assert (G : exists Y, mapM (fun x => do r <- on_row f x; assign r0 r) X' = Ok Y /\
    Forall2 (fun x row => exists r, on_row f x = Ok r /\ Forall2 (fun q v => stored (result_dtype r0) q (value_of v)) (values_of r) row) X' Y).
  { clear X1. induction X' as [|x X' IH]; [exists []; split; [reflexivity|constructor]|]. destruct (H x (or_introl eq_refl)) as [r [Er Sr]]. destruct (assign_same r0 r Sr) as [row [Ea Sa]].
    destruct IH as [Y [EY SY]]; [intros; apply H; now right|]. exists (row :: Y). cbn [mapM]. rewrite Er. cbn [bind]. rewrite Ea. cbn [bind]. rewrite EY. split; [reflexivity|].
    constructor; [eauto|assumption]. }
  destruct G as [Y [EY SY]]. rewrite EY. exists Y. split; [reflexivity|assumption].
Qed.
(** So the output holds exactly the numbers returned iff the type of the first result can represent
    them, in particular if all results have one type. *)
Theorem callable_rows_exact f (validate : bool) X X' x0 r0 : has_axis f = false ->
  (if validate then check X else Ok X) = Ok X' -> Znth X' 0 = Some x0 -> on_row f x0 = Ok r0 ->
  (forall x, In x X' -> exists r, on_row f x = Ok r /\ same_shape r0 r) ->
  exists Y, transformer_from_callable check (Some f) validate X = Ok (New Y) /\ zlen Y = zlen X' /\
    (Forall2 (fun x row => exists r, on_row f x = Ok r /\ map value_of row = values_of r) X' Y <->
     forall x r q, In x X' -> on_row f x = Ok r -> In q (values_of r) -> representable (result_dtype r0) q).
Proof.
  intros NA EC H0 E0 H. destruct (callable_rows f validate X X' x0 r0 NA EC H0 E0 H) as [Y [EY SY]]. exists Y. split; [assumption|]. split; [symmetry; eapply Forall2_zlen; eassumption|].
  assert (L : forall qs row, Forall2 (fun q v => stored (result_dtype r0) q (value_of v)) qs row ->
    (map value_of row = qs <-> forall q, In q qs -> representable (result_dtype r0) q)).
  { induction 1 as [|q v qs row S F IH]; [easy|]. cbn [map]. apply stored_exact in S. split.
    - intros E. injection E as E1 E2. intros q' [<-|I]; [now apply S|]. rewrite IH in E2. auto.
    - intros G. f_equal; [apply S, G; now left|]. apply IH. intros; apply G; now right. }
  split.
  - intros F x r q Hx Er Hq. apply In_Znth in Hx. destruct Hx as [i [_ Hi]]. destruct (Znth_ex Y i) as [row Hrow]; [rewrite <- (Forall2_zlen _ _ _ F); eapply Znth_Some_lt; eassumption|].
    destruct (Forall2_Znth _ _ _ _ _ _ F Hi Hrow) as [r1 [Er1 E1]]. destruct (Forall2_Znth _ _ _ _ _ _ SY Hi Hrow) as [r2 [Er2 S2]]. rewrite Er in Er1, Er2. injection Er1 as <-. injection Er2 as <-.
    exact (proj1 (L _ _ S2) E1 q Hq).
  - intros G. refine (proj1 (Forall2_iff' _ _ X' Y _) SY). intros x row Hx. split.
    + intros [r [Er S]]. exists r. split; [assumption|]. apply (L _ _ S). intros q Hq. eapply G; eassumption.
    + intros [r [Er E]]. apply In_Znth in Hx. destruct (H x ltac:(destruct Hx as [i [_ Hi]]; eapply Znth_In; eassumption)) as [r' [Er' Sr]]. rewrite Er in Er'. injection Er' as <-.
      exists r. split; [assumption|]. destruct (assign_same r0 r Sr) as [row' [_ S']].
      assert (E' : map value_of row' = values_of r) by (apply (L _ _ S'); intros q Hq; eapply G; [destruct Hx as [i [_ Hi]]; eapply Znth_In; eassumption|eassumption|assumption]).
      rewrite <- E in E'. clear - S' E'. revert row E'. induction S' as [|q v qs row' S F IH]; intros row E'; destruct row as [|u row]; try discriminate; constructor.
      * injection E' as E1 _. now rewrite <- E1.
      * apply IH. now injection E'.
Qed.
Corollary callable_rows_one_type f (validate : bool) X X' x0 r0 : has_axis f = false ->
  (if validate then check X else Ok X) = Ok X' -> Znth X' 0 = Some x0 -> on_row f x0 = Ok r0 ->
  (forall x, In x X' -> exists r, on_row f x = Ok r /\ same_shape r0 r /\ typed r /\ result_dtype r = result_dtype r0) ->
  exists Y, transformer_from_callable check (Some f) validate X = Ok (New Y) /\
    Forall2 (fun x row => exists r, on_row f x = Ok r /\ map value_of row = values_of r) X' Y.
Proof.
  intros NA EC H0 E0 H. destruct (callable_rows_exact f validate X X' x0 r0 NA EC H0 E0) as [Y [EY [_ SY]]].
  - intros x Hx. destruct (H x Hx) as [r [? [? _]]]. eauto.
  - exists Y. split; [assumption|]. apply SY. intros x r q Hx Er Hq. destruct (H x Hx) as [r' [Er' [_ [T D]]]]. rewrite Er in Er'. injection Er' as <-. rewrite <- D.
    assert (V : forall y, representable (dtype_of y) (value_of y)) by (intros [[]|z|q']; cbn; eauto).
    destruct r as [y|d l]; cbn in Hq |- *.
    + destruct Hq as [<-|[]]. apply V.
    + apply in_map_iff in Hq. destruct Hq as [y [<- Hy]]. cbn in T. rewrite <- (T y Hy). apply V.
Qed.
(** Failures: an exception of the callable on the first row, or no row at all. *)
Theorem callable_rows_fail f (validate : bool) X X' : has_axis f = false -> (if validate then check X else Ok X) = Ok X' ->
  (X' = [] -> transformer_from_callable check (Some f) validate X = Err ValueError) /\
  (forall x0 e, Znth X' 0 = Some x0 -> on_row f x0 = Err e -> transformer_from_callable check (Some f) validate X = Err e).
Proof.
  intros NA EC. unfold transformer_from_callable. rewrite EC. cbn [bind]. rewrite NA. split; [intros ->; reflexivity|].
  intros x0 e H0 E. destruct X' as [|x1 X1]; [discriminate|]. injection H0 as ->. cbn [apply_along_axis_1]. now rewrite E.
Qed.

(** ** Callables with a parameter axis, no callable *)
(** A vectorised callable: along axis 1, keeping the axis, it gives the scalar results as a column. *)
Definition vectorised_scalar (f : callable A) : Prop := forall X,
  (forall x, In x X -> exists v, on_row f x = Ok (Scalar v)) ->
  exists Y, on_axis_1 f X = Ok Y /\ Forall2 (fun x row => exists v, on_row f x = Ok (Scalar v) /\ row = [v]) X Y.
Theorem callable_axis f (validate : bool) X X' : has_axis f = true -> (if validate then check X else Ok X) = Ok X' ->
  (has_keepdims f = true -> vectorised_scalar f -> (forall x, In x X' -> exists v, on_row f x = Ok (Scalar v)) ->
   exists Y, transformer_from_callable check (Some f) validate X = Ok (New Y) /\
     Forall2 (fun x row => exists v, on_row f x = Ok (Scalar v) /\ row = [v]) X' Y) /\
  (has_keepdims f = false -> transformer_from_callable check (Some f) validate X = Err TypeError).
Proof.
  intros HA EC. unfold transformer_from_callable. rewrite EC. cbn [bind]. rewrite HA. split; [|intros ->; reflexivity].
  intros -> V H. destruct (V X' H) as [Y [-> S]]. cbn. eauto.
Qed.
Theorem callable_none (validate : bool) X X' : (if validate then check X else Ok X) = Ok X' ->
  transformer_from_callable check None validate X = Ok (Same X') /\ identity check validate X = Ok (Same X').
Proof. intros EC. unfold identity, transformer_from_callable. rewrite EC. easy. Qed.
Theorem callable_invalid f X e : check X = Err e -> transformer_from_callable check f true X = Err e.
Proof. intros E. unfold transformer_from_callable. now rewrite E. Qed.
End Callables.

(** A defect: the claim that every output row is the callable's value on the corresponding input row
    is false; it may even depend on the order of the rows. *)
Theorem callable_rows_refuted : exists (f : list Qc -> res result) (a b : list Qc) (Y Y' : list (list num)),
  let t := Callable false false f (fun _ => Err RuntimeError) in
  (forall x, exists v, f x = Ok (Scalar v)) /\
  transformer_from_callable Ok (Some t) true [a; b] = Ok (New Y) /\
  transformer_from_callable Ok (Some t) true [b; a] = Ok (New Y') /\
  ~ Forall2 (fun x row => exists r, f x = Ok r /\ map value_of row = values_of r) [a; b] Y /\
  Forall2 (fun x row => exists r, f x = Ok r /\ map value_of row = values_of r) [b; a] Y'.
Proof.
  set (h := (1 / qz 2)%Qc). exists (fun x => match x with y :: _ => Ok (Scalar (if Qcltb 0 y then NFloat y else NInt 0)) | [] => Ok (Scalar (NInt 0)) end), [0%Qc], [h], [[NInt 0]; [NInt 0]], [[NFloat h]; [NFloat 0]].
  cbn zeta. split; [intros [|y x]; eauto|]. split; [reflexivity|]. split; [reflexivity|]. split.
  - intros F. inversion F as [|? ? ? ? _ F2]; subst. inversion F2 as [|? ? ? ? [r [Er E]] _]; subst. cbn in Er. injection Er as <-. cbn in E. discriminate E.
  - constructor; [eexists; split; reflexivity|]. constructor; [eexists; split; reflexivity|constructor].
Qed.

(** ** method_to_transform *)
Section Method.
Context {P X V W : Type}.
Variable e : estimator P X V W.
(** What the method returns, a vector being turned into a column. *)
Definition as_columns (r r' : arr V W) : Prop :=
  match r with
  | Arr1 l => exists l', r' = Arr2 l' /\ Forall2 (fun v row => row = [v]) l l'
  | _ => r' = r
  end.
Theorem method_to_transform_spec m p x : e_method e = Some m ->
  (forall r, m p x = Ok r -> exists r', extended_transform e p x = Ok (Some r') /\ as_columns r r') /\
  (forall ex, m p x = Err ex -> extended_transform e p x = Err ex).
Proof.
  intros E. unfold extended_transform. rewrite E. split.
  - intros r ->. cbn [bind]. eexists. split; [reflexivity|]. destruct r as [l| |]; cbn; try reflexivity. eexists. split; [reflexivity|]. induction l; constructor; auto.
  - intros ex ->. reflexivity.
Qed.
(** fit_transform is fit followed by transform, provided that the class has no fit_transform. *)
Theorem method_to_transform_fit p x p' : e_fit_transform e = None -> e_fit e p x = Ok p' ->
  extended_fit_transform e p x = extended_transform e p' x.
Proof. intros E F. unfold extended_fit_transform. rewrite E, F. reflexivity. Qed.
(** Without such a method transform returns None, for all inputs. *)
Theorem method_to_transform_missing p x : e_method e = None -> extended_transform e p x = Ok None.
Proof. intros E. unfold extended_transform. now rewrite E. Qed.
End Method.
(** A defect: for a class with its own fit_transform (KMeans, say), fit_transform is not fit followed
    by the new transform. *)
Theorem method_to_transform_fit_refuted : exists (e : estimator unit (list Z) Z unit) x p',
  e_fit e tt x = Ok p' /\ exists r r', extended_transform e p' x = Ok (Some r) /\ extended_fit_transform e tt x = Ok (Some r') /\ r <> r'.
Proof.
  exists (Estimator (fun _ _ => Ok tt) (Some (fun _ x => Ok (Arr1 x))) (Some (fun _ x => Ok (Arr2 [x; x])))), [3], tt.
  split; [reflexivity|]. eexists _, _. split; [reflexivity|]. split; [reflexivity|]. discriminate.
Qed.

(** ** Concrete cases *)
Example ex_table : finite_table [[XFin 1; XFin (-3)]; [XFin 0; XFin 0]] [[1; -3]; [0; 0]]%R 2 2.
Proof.
  split; [|reflexivity]. split; [lia|]. split; [lia|]. split; [reflexivity|]. intros row [<-|[<-|[]]]; reflexivity.
Qed.
Example ex_bad_table : bad_table [[XFin 1; XNaN]] 2.
Proof. split; [intros row [<-|[]]; reflexivity|]. exists [XFin 1; XNaN], XNaN. split; [now left|]. split; [right; now left|]. easy. Qed.
Example ex_metric_like : metric_like (fun u v : list R => mink (Pfin 2) u v).
Proof. split; [intros x; apply RNormFacts.mink_refl; lra|]. intros; apply RNormFacts.mink_sym. Qed.
(** Largest distance from the first of the two points. *)
Example ex_eccentricity : eccentricity OPinf (Some (mink Pinf)) [[XFin 1; XFin (-3)]; [XFin 0; XFin 0]] = Ok [[3%R]; [3%R]].
Proof.
  cbv [eccentricity check_array mapM xfin bind squareform_pdist mapi mapi_from row_norm map Z.eqb Z.ltb Z.compare Z.add mink norm vsub combine fst snd rmax fold_right Pos.compare Pos.compare_cont Pos.add].
  repeat (rewrite Rabs_R0 || (rewrite (Rabs_right (1 - 0)) by lra) || (rewrite (Rabs_left (-3 - 0)) by lra)).
  replace (Rmax (1 - 0) (Rmax (- (-3 - 0)) 0)) with 3%R; [|rewrite (Rmax_left (- (-3 - 0))) by lra; rewrite Rmax_right; lra].
  rewrite (Rabs_right 3) by lra. rewrite (Rmax_left 3 0) by lra. rewrite (Rmax_right 0 3) by lra. cbn [Pos.eqb]. rewrite Rabs_R0, (Rmax_left 0 0) by lra. rewrite (Rmax_left 3 0) by lra. reflexivity.
Qed.
Example ex_entropy_row : exists x, In x [1; -3]%R /\ x <> 0%R.
Proof. exists 1%R. split; [now left|lra]. Qed.
Example ex_projection : projection (ManyCols [-1; 0]) [[XFin 1; XFin (-3)]; [XFin 0; XFin 2]] = Ok [[-3; 1]; [2; 0]]%R.
Proof. reflexivity. Qed.
Example ex_frame : well_formed (Frame [7; 5] [[Number (XFin 1); Text]]) /\ NoDup (labels (Frame [7; 5] [[Number (XFin 1); Text]])) /\
  projection_frame_transform (OneCol 7) (Frame [7; 5] [[Number (XFin 1); Text]]) = Ok [[1%R]] /\
  projection_frame_transform (OneCol 5) (Frame [7; 5] [[Number (XFin 1); Text]]) = Err ValueError /\
  projection_frame_transform (OneCol 0) (Frame [7; 5] [[Number (XFin 1); Text]]) = Err KeyError.
Proof.
  split; [intros row [<-|[]]; reflexivity|]. split; [repeat constructor; cbn; intuition discriminate|]. repeat split.
Qed.
(** A callable returning two numbers. *)
Example ex_callable : transformer_from_callable Ok
  (Some (Callable false false (fun x : list Z => Ok (Vector DInt [NInt (zlen x); NInt 1])) (fun _ => Err RuntimeError))) true [[4]; [5]]
  = Ok (New [[NInt 1; NInt 1]; [NInt 1; NInt 1]]).
Proof. reflexivity. Qed.
Example ex_callable_hyp : forall x, In x [[4]; [5]] -> exists r, (fun x : list Z => Ok (Vector DInt [NInt (zlen x); NInt 1])) x = Ok r /\
  same_shape (Vector DInt [NInt 1; NInt 1]) r /\ typed r /\ result_dtype r = DInt.
Proof. intros x _. eexists. split; [reflexivity|]. split; [reflexivity|]. split; [|reflexivity]. intros y [<-|[<-|[]]]; reflexivity. Qed.
Example ex_vectorised : vectorised_scalar (Callable true true (fun x : list Z => Ok (Scalar (NInt (zlen x)))) (fun X => Ok (map (fun x => [NInt (zlen x)]) X))).
Proof.
  intros X _. eexists. split; [reflexivity|]. cbn. induction X; constructor; eauto.
Qed.

Print Assumptions filters_reject.
Print Assumptions eccentricity_spec.
Print Assumptions eccentricity_metric.
Print Assumptions entropy_filter_spec.
Print Assumptions projection_frame_spec.
Print Assumptions callable_rows_exact.
