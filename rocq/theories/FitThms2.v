(* C87 and C88: the theorems about the 51 estimators, with concrete worlds in
   which their hypotheses hold, and the classes for which the strong statements
   are false. *)
From Coq Require Import List String Bool Arith.
From Verif Require Import Np FitTypes FitModel FitSpec FitAna FitThms.
Import ListNotations.
Open Scope string_scope.
Open Scope list_scope.
Open Scope nat_scope.

(* --- C87 ----------------------------------------------------------------- *)

Theorem fit_forgets_the_past : forall c, In c all_classes -> forgets_the_past c.
Proof.
  assert (H : forallb check_forgets all_classes = true) by (vm_compute; reflexivity).
  rewrite forallb_forall in H. intros c Hc. apply check_forgets_sound, H, Hc.
Qed.

(* --- C88 ----------------------------------------------------------------- *)

(* estimators on which a fit that raises is never visible in later calls *)
Definition robust : list cls :=
  [Derivative; PersistenceEntropy; NumberOfPoints; ForgetDimension; Scaler; Filtering;
   GraphGeodesicDistance; TransitionGraph; DilationFiltration; ErosionFiltration;
   SignedDistanceFiltration; Binarizer; Inverter; Padder; ImageToPointCloud;
   ConsistentRescaling; ConsecutiveRescaling; SlidingWindow; SingleTakensEmbedding;
   TakensEmbedding; PermutationEntropy; PearsonDissimilarity; Resampler; Stationarizer;
   Eccentricity; Entropy; Projection].

(* estimators on which it is not visible if the hyperparameters are those of the
   last successful fit *)
Definition robust_same_params : list cls :=
  [KNeighborsGraph; CubicalPersistence; VietorisRipsPersistence; WeightedRipsPersistence;
   SparseRipsPersistence; WeakAlphaPersistence; EuclideanCechPersistence; FlagserPersistence;
   Labeller].

(* estimators on which it is visible *)
Definition fragile : list cls :=
  [StandardFeatures; PairwiseDistance; Amplitude; ComplexPolynomial; BettiCurve;
   PersistenceLandscape; HeatKernel; PersistenceImage; Silhouette; HeightFiltration;
   RadialFiltration; DensityFiltration].

(* estimators whose methods raise NotFittedError until a fit has succeeded *)
Definition guarded : list cls :=
  [Derivative; PersistenceEntropy; NumberOfPoints; ForgetDimension; Filtering;
   GraphGeodesicDistance; KNeighborsGraph; TransitionGraph; ConsistentRescaling;
   ConsecutiveRescaling; SlidingWindow; SingleTakensEmbedding; TakensEmbedding;
   PermutationEntropy; PearsonDissimilarity; Resampler; Stationarizer; Labeller; Eccentricity;
   Entropy; Projection].

Theorem failed_fit_is_invisible : forall c, In c robust -> failed_fits_harmless c.
Proof.
  assert (H : forallb check_harmless robust = true) by (vm_compute; reflexivity).
  rewrite forallb_forall in H. intros c Hc. apply check_harmless_sound, H, Hc.
Qed.

Theorem failed_fit_is_invisible_same_params :
  forall c, In c (robust ++ robust_same_params) -> failed_fits_harmless_same_params c.
Proof.
  intros c Hc. apply in_app_or in Hc. destruct Hc as [Hc|Hc].
  - pose proof (failed_fit_is_invisible c Hc) as F. intros V w p0 h0 X0 h1 h o1 S o2 NS NP NG.
    specialize (F V w p0 h0 X0 h1 h S NP NG). fold o1 o2 in F. rewrite F. f_equal.
    assert (P : forall h o, no_set_params h -> o_par (after w c o h) = o_par o).
    { clear. induction h as [|q h IH]; intros o N; [reflexivity|].
      rewrite after_cons, IH by (intros p Hp; apply (N p); right; exact Hp).
      destruct q as [p|X|m X|a]; simpl; auto.
      - destruct (N p); left; auto.
      - unfold run_fit. destruct (exec _ _ _ _ _) as [[? ?] ?]; auto.
      - apply call_par. }
    rewrite P by exact NS. destruct o2; auto.
  - assert (H : forallb check_same_params robust_same_params = true) by (vm_compute; reflexivity).
    rewrite forallb_forall in H. apply check_same_params_sound, H, Hc.
Qed.

Theorem unfitted_methods_raise_not_fitted : forall c, In c guarded -> raises_not_fitted c.
Proof.
  assert (H : forallb check_not_fitted guarded = true) by (vm_compute; reflexivity).
  rewrite forallb_forall in H. intros c Hc. apply check_not_fitted_sound, H, Hc.
Qed.

(* each of these classes has a method to be called *)
Lemma guarded_have_transform : forall c, In c guarded -> exists s, lookup_meth (c_meths c) "transform" = Some s \/
  lookup_meth (c_meths c) "fit_transform" = Some s.
Proof.
  intros c H. unfold guarded in H. simpl in H.
  repeat (destruct H as [<-|H]; [eexists; vm_compute; auto|]). destruct H.
Qed.

(* --- a concrete world ------------------------------------------------------
   Just enough of the libraries to tell what the real calls do on the data of the
   histories below: arrays are known by their shape, collections of diagrams by
   their homology dimensions and by whether all the diagrams have the same number
   of points in each dimension ([_subdiagrams] raises ValueError if not, see C09),
   lists of numbers by their entries. *)
Inductive dv :=
| Arr (shape : list nat)
| Dgm (dims : list nat) (ragged : bool)
| Lst (l : list nat)
| Num (n : nat)
| Str (s : string)
| Bool (b : bool)
| Non.

Definition first (vs : list dv) : dv := match vs with v :: _ => v | [] => Non end.
Definition subset (a b : list nat) : bool := forallb (fun x => existsb (Nat.eqb x) b) a.
Definition is (n : string) (l : list string) : bool := existsb (String.eqb n) l.

Fixpoint same_list (a b : list nat) : bool :=
  match a, b with
  | [], [] => true
  | x :: a, y :: b => Nat.eqb x y && same_list a b
  | _, _ => false
  end.

Definition dmay (n : string) (vs : list dv) : res dv :=
  if is n ["_bin"; "with samplings, step_sizes = _bin"] then
    match vs with
    | Dgm d ragged :: _ => if ragged then Err ValueError else Ok (Lst d)
    | _ => Err ValueError
    end
  else if is n ["betti_curves"; "landscapes"; "heats"; "persistence_images"; "silhouettes"] then
    (* self._samplings[dim] for dim in self.homology_dimensions_ *)
    match vs with
    | Dgm _ _ :: Lst hd :: Lst samplings :: _ => if subset hd samplings then Ok (Lst hd) else Err KeyError
    | _ => Err ValueError
    end
  else if is n ["_parallel_amplitude"] then
    (* without samplings the recipe compares an array with None *)
    match vs with [_; _; Lst _; Lst hd; _] => Ok (Lst hd) | _ => Err TypeError end
  else if is n ["_parallel_pairwise"] then
    match vs with [_; _; _; Lst _; Lst hd; _] => Ok (Lst hd) | _ => Err TypeError end
  else if is n ["_complex_polynomial"] then
    (* self.n_coefficients_[d] for d, dim in enumerate(self.homology_dimensions_) *)
    match vs with
    | Dgm _ _ :: Lst hd :: Lst nc :: _ => if Nat.leb (List.length hd) (List.length nc) then Ok (Lst nc) else Err IndexError
    | _ => Err ValueError
    end
  else if is n ["np.max(_calculate_height(ones)) + 1"] then
    (* np.dot of the mesh of the images with the direction *)
    match vs with
    | [Arr (_ :: s); _; _; Lst d] => if Nat.eqb (List.length s) (List.length d) then Ok (Num 9) else Err ValueError
    | _ => Err ValueError
    end
  else if is n ["_calculate_height"; "_calculate_radial"] then
    (* the mesh must have the shape of the images *)
    match vs with
    | Arr (k :: s) :: _ :: Arr (_ :: m) :: _ => if same_list s m then Ok (Arr (k :: s)) else Err ValueError
    | _ => Err ValueError
    end
  else if is n ["pairwise_distances.reshape"] then
    (* the centre must have as many coordinates as the points of the mesh *)
    match vs with
    | Lst c :: Arr (k :: s) :: _ => if Nat.eqb (List.length c) (List.length s) then Ok (Arr (k :: s)) else Err ValueError
    | _ => Err ValueError
    end
  else if is n ["check_point_clouds"] then
    (* distance matrices must be square *)
    match vs with
    | [Arr [k; r; c]; Bool true] => if Nat.eqb r c then Ok (Arr [k; r; c]) else Err ValueError
    | Arr s :: _ => if Nat.eqb (List.length s) 3 then Ok (Arr s) else Err ValueError
    | _ => Err ValueError
    end
  else if is n ["check_diagrams"] then
    match vs with Dgm d r :: _ => Ok (Dgm d r) | _ => Err ValueError end
  else if is n ["reshape to X.shape"] then
    match vs with
    | [Arr a; Arr b] => if Nat.eqb (fold_right Nat.mul 1 a) (fold_right Nat.mul 1 b) then Ok (Arr b) else Err ValueError
    | _ => Err ValueError
    end
  else if is n ["_padder.transform"] then
    (* one pixel of padding along the axes chosen by the padder *)
    match vs with
    | [Lst p; Arr (k :: s)] => Ok (Arr (k :: map (fun q => (fst q + 2 * snd q)%nat) (combine s p)))
    | _ => Err ValueError
    end
  else if is n ["int(np.ceil(pairwise_distances([[0]], [[radius]])))"] then Ok (Num 1)
  else Ok (first vs).

Definition dtot (n : string) (vs : list dv) : dv :=
  if is n ["np.unique(X[0, :, 2])"] then match vs with Dgm d _ :: _ => Lst d | _ => Non end
  else if is n ["X.shape[1]"] then match vs with Arr (_ :: c :: _) :: _ => Num c | _ => Non end
  else if is n ["X.ndim - 1"] then match vs with Arr s :: _ => Num (List.length s - 1) | _ => Non end
  else if is n ["X.ndim != 3"] then match vs with Arr s :: _ => Bool (negb (Nat.eqb (List.length s) 3)) | _ => Bool true end
  else if is n ["X.shape[0] == 1"] then match vs with Arr (1 :: _) :: _ => Bool true | _ => Bool false end
  else if is n ["> 3"] then match vs with Num k :: _ => Bool (Nat.ltb 3 k) | _ => Bool true end
  else if is n ["== 3"] then match vs with Num k :: _ => Bool (Nat.eqb k 3) | _ => Bool true end
  else if is n ["len"] then match vs with Lst l :: _ => Num (List.length l) | _ => Non end
  else if is n ["len != n"] then match vs with [Lst l; Num k] => Bool (negb (Nat.eqb (List.length l) k)) | _ => Bool true end
  else if is n ["Xt.shape[1] != n"] then
    match vs with [Arr (_ :: c :: _); Num k] => Bool (negb (Nat.eqb c k)) | _ => Bool true end
  else if is n ["isinstance(function, str)"] then match vs with Str _ :: _ => Bool true | _ => Bool false end
  else if is n ["isinstance(function, FunctionType)"] then Bool false
  else if is n ["type == list"] then match vs with Lst _ :: _ => Bool true | _ => Bool false end
  else if is n ["is None"] then match vs with Non :: _ => Bool true | _ => Bool false end
  else if is n ["is not None"] then match vs with Non :: _ => Bool false | _ => Bool true end
  else if is n ["== 'precomputed'"] then match vs with Str s :: _ => Bool (String.eqb s "precomputed") | _ => Bool false end
  else if is n ["padding"] then match vs with [_; Num k] => Lst (repeat 1 k ++ repeat 0 (3 - k)) | _ => Non end
  else if is n ["Xt[:, size: -size, size: -size]"] then
    match vs with Arr [k; a; b; c] :: _ => Arr [k; a - 2; b - 2; c] | _ => Non end
  else if is n ["Xt[:, :, :, size: -size]"] then
    match vs with Arr [k; a; b; c] :: _ => Arr [k; a; b; c - 2] | _ => Non end
  else first vs.

Definition dworld : world dv :=
  {| may := dmay; tot := dtot;
     truth := fun v => match v with Bool b => b | _ => false end;
     items := fun v => match v with Lst l => map Num l | _ => [] end |}.

(* all hyperparameters None but those given *)
Definition pars (l : list (string * dv)) : string -> dv :=
  fun p => match get l p with Some v => v | None => Non end.

(* what is seen when an object with these hyperparameters is fitted on X0, used on
   X, fitted on X1 and used on X again *)
Definition story (c : cls) (p : list (string * dv)) (X0 X1 X : dv) : list (obs dv) :=
  seen dworld c (new_obj (pars p)) [Fit X0; Call "transform" X; Fit X1; Call "transform" X].

(* The hypotheses of the positive theorems are met: an object fitted
   successfully, a second fit that raises, the same answers before and after. *)
Example derivative_story :
  story Derivative [] (Arr [2; 3; 4]) (Arr [2; 3]) (Arr [5; 3; 4]) =
  [Self; Val (Arr [5; 3; 4]); Exc ValueError; Val (Arr [5; 3; 4])].
Proof. vm_compute. reflexivity. Qed.

Example scaler_story :
  story Scaler [] (Dgm [0; 1] false) (Dgm [0] true) (Dgm [0; 1] false) =
  [Self; Val (Dgm [0; 1] false); Exc ValueError; Val (Dgm [0; 1] false)].
Proof. vm_compute. reflexivity. Qed.

Example vietoris_story :
  story VietorisRipsPersistence [("metric", Str "precomputed")] (Arr [2; 3; 3]) (Arr [2; 3; 4]) (Arr [1; 5; 5]) =
  [Self; Val (Arr [1; 5; 5]); Exc ValueError; Val (Arr [1; 5; 5])].
Proof. vm_compute. reflexivity. Qed.

(* a fit that raises and a transform that follows *)
Example derivative_not_fitted :
  seen dworld Derivative (new_obj (pars [])) [Fit (Arr [2; 3]); Call "transform" (Arr [5; 3; 4])] =
  [Exc ValueError; Exc NotFittedError].
Proof. vm_compute. reflexivity. Qed.

(* --- what is false -------------------------------------------------------- *)

(* A failed fit spoils the object: after a fit on X0, X is transformed, but if a
   fit on X1 is attempted in between, which raises x1, transforming X raises x2. *)
Definition spoilt (c : cls) (p : list (string * dv)) (X0 X1 X : dv) (x1 x2 : exn) : Prop :=
  (exists v, seen dworld c (new_obj (pars p)) [Fit X0; Call "transform" X] = [Self; Val v]) /\
  seen dworld c (new_obj (pars p)) [Fit X0; Fit X1; Call "transform" X] = [Self; Exc x1; Exc x2].

Lemma spoilt_refutes c p X0 X1 X x1 x2 : spoilt c p X0 X1 X x1 x2 -> ~ failed_fits_harmless_same_params c.
Proof.
  intros [[v S] T] H. unfold seen in S, T. simpl in S, T.
  destruct (run_fit dworld c (new_obj (pars p)) X0) as [o2 r0] eqn:E0.
  destruct (run_call dworld c o2 "transform" X) as [o2' r1] eqn:E1.
  destruct (run_fit dworld c o2 X1) as [o3 r2] eqn:E2.
  destruct (run_call dworld c o3 "transform" X) as [o4 r3] eqn:E3.
  simpl in S, T. injection S as -> ->. injection T as -> ->.
  specialize (H dv dworld (pars p) [] X0 [Fit X1] [Call "transform" X]).
  unfold after, fit_shows, fit_leaves, seen in H. simpl in H.
  rewrite E0 in H. simpl in H. rewrite E2 in H. simpl in H. rewrite E1, E3 in H. simpl in H.
  assert (F : [Exc x2] = [@Val dv v]); [|discriminate F].
  apply H; auto.
  - intros q [K|[]]. discriminate K.
  - intros h' Y t E. destruct h' as [|q h']; simpl in E.
    + injection E as <- _. unfold fit_shows, after. simpl. rewrite E2. discriminate.
    + injection E as _ E. destruct h'; discriminate E.
  - intros a [K|[]]. discriminate K.
Qed.

(* two functions per channel, then a collection with three channels *)
Lemma StandardFeatures_spoilt :
  spoilt StandardFeatures [("function", Lst [0; 1])] (Arr [1; 2; 5]) (Arr [1; 3; 5]) (Arr [1; 2; 5]) ValueError ValueError.
Proof. split; [eexists|]; vm_compute; reflexivity. Qed.

(* diagrams with dimensions 0 and 1 that are not rectangular *)
Lemma diagrams_spoilt : Forall (fun c => spoilt c [] (Dgm [0] false) (Dgm [0; 1] true) (Dgm [0] false) ValueError KeyError)
  [BettiCurve; PersistenceLandscape; HeatKernel; PersistenceImage; Silhouette].
Proof. repeat constructor; try eexists; vm_compute; reflexivity. Qed.

Lemma metric_spoilt : Forall (fun c => spoilt c [] (Dgm [0] false) (Dgm [0; 1] true) (Dgm [0] false) ValueError TypeError)
  [PairwiseDistance; Amplitude].
Proof. repeat constructor; try eexists; vm_compute; reflexivity. Qed.

(* one number of coefficients, then a collection with two dimensions *)
Lemma ComplexPolynomial_spoilt :
  spoilt ComplexPolynomial [("n_coefficients", Lst [5])] (Dgm [0] false) (Dgm [0; 1] false) (Dgm [0] false) ValueError IndexError.
Proof. split; [eexists|]; vm_compute; reflexivity. Qed.

(* a direction in space, then images in the plane *)
Lemma HeightFiltration_spoilt :
  spoilt HeightFiltration [("direction", Lst [1; 0; 0])] (Arr [1; 2; 2; 2]) (Arr [1; 2; 2]) (Arr [1; 2; 2; 2]) ValueError ValueError.
Proof. split; [eexists|]; vm_compute; reflexivity. Qed.

Lemma RadialFiltration_spoilt :
  spoilt RadialFiltration [("center", Lst [1; 0; 0])] (Arr [1; 2; 2; 2]) (Arr [1; 2; 2]) (Arr [1; 2; 2; 2]) ValueError ValueError.
Proof. split; [eexists|]; vm_compute; reflexivity. Qed.

(* images in space, then arrays with five axes *)
Lemma DensityFiltration_spoilt :
  spoilt DensityFiltration [("radius", Num 1)] (Arr [1; 3; 3; 3]) (Arr [1; 2; 2; 2; 2]) (Arr [1; 3; 3; 3]) ValueError ValueError.
Proof. split; [eexists|]; vm_compute; reflexivity. Qed.

Theorem failed_fit_is_invisible_refuted :
  forall c, In c fragile -> ~ failed_fits_harmless_same_params c.
Proof.
  pose proof diagrams_spoilt as D. pose proof metric_spoilt as M.
  rewrite Forall_forall in D, M.
  intros c Hc. unfold fragile in Hc. simpl in Hc.
  repeat (destruct Hc as [<-|Hc]; [eapply spoilt_refutes;
    first [apply StandardFeatures_spoilt | apply ComplexPolynomial_spoilt | apply HeightFiltration_spoilt
           | apply RadialFiltration_spoilt | apply DensityFiltration_spoilt
           | apply D; simpl; tauto | apply M; simpl; tauto]|]).
  destruct Hc.
Qed.

(* With other hyperparameters a failed fit can be visible on the nine classes of
   [robust_same_params] too: clouds of points, then a failed attempt with
   metric="precomputed", then back to the first metric. *)
Lemma precomputed_flag_spoilt : forall c, In c [KNeighborsGraph; VietorisRipsPersistence] ->
  seen dworld c (new_obj (pars [("metric", Str "euclidean")]))
    [Fit (Arr [1; 4; 2]); Call "transform" (Arr [1; 4; 2]);
     SetParams (pars [("metric", Str "precomputed")]); Fit (Arr [1; 3; 2]);
     SetParams (pars [("metric", Str "euclidean")]); Call "transform" (Arr [1; 4; 2])] =
  [Self; Val (Arr [1; 4; 2]); Self; Exc ValueError; Self; Exc ValueError].
Proof. intros c [<-|[<-|[]]]; vm_compute; reflexivity. Qed.

Fixpoint no_success_steps {V} (w : world V) (c : cls) (o : obj V) (h : list (op V)) : Prop :=
  match h with
  | [] => True
  | q :: t => match q with Fit X => fit_shows w c o X <> Self | _ => True end /\
              no_success_steps w c (fst (run_op w c o q)) t
  end.

Lemma no_success_steps_ok {V} (w : world V) c h : forall o, no_success_steps w c o h -> no_success w c o h.
Proof.
  induction h as [|q h IH]; intros o; simpl.
  - intros _ h' X t E. destruct h'; discriminate E.
  - intros [K1 K2] h' X t E. destruct h' as [|q' h']; simpl in E.
    + injection E as -> _. exact K1.
    + injection E as <- E. rewrite after_cons. exact (IH _ K2 h' X t E).
Qed.

Theorem failed_fit_with_other_params_refuted :
  ~ failed_fits_harmless KNeighborsGraph /\ ~ failed_fits_harmless VietorisRipsPersistence.
Proof.
  split; intros H;
    specialize (H dv dworld (pars [("metric", Str "euclidean")]) [] (Arr [1; 4; 2])
                  [SetParams (pars [("metric", Str "precomputed")]); Fit (Arr [1; 3; 2]);
                   SetParams (pars [("metric", Str "euclidean")])]
                  [Call "transform" (Arr [1; 4; 2])] eq_refl); cbv zeta in H;
    (match type of H with ?A -> _ => assert (N : A) end;
     [apply no_success_steps_ok; simpl; repeat split; vm_compute; discriminate|]);
    specialize (H N); clear N;
    (match type of H with ?A -> _ => assert (N : A) end;
     [intros a [K|[]]; discriminate K|]);
    specialize (H N); vm_compute in H; discriminate H.
Qed.

(* check_is_fitted(self) looks for any name that ends with an underscore, and the
   fits of images set n_dimensions_ before they check it: an object whose only
   fit raised can be used ... *)
Theorem not_fitted_image_to_point_cloud_refuted : ~ raises_not_fitted ImageToPointCloud.
Proof.
  intros H.
  assert (K := fun s => H dv dworld (pars []) [Fit (Arr [1; 2; 2; 2; 2])] "transform" s (Arr [1; 3; 3])).
  assert (N : no_success dworld ImageToPointCloud (new_obj (pars [])) [Fit (Arr [1; 2; 2; 2; 2])]).
  { apply no_success_steps_ok. simpl. repeat split. vm_compute. discriminate. }
  specialize (K _ N eq_refl). vm_compute in K. discriminate K.
Qed.

(* ... or raises AttributeError *)
Theorem not_fitted_filtrations_refuted :
  forall c, In c [HeightFiltration; RadialFiltration; DilationFiltration; ErosionFiltration;
                  SignedDistanceFiltration; DensityFiltration; Binarizer; Inverter; Padder] ->
  ~ raises_not_fitted c /\
  seen dworld c (new_obj (pars [])) [Fit (Arr [1; 2; 2; 2; 2]); Call "transform" (Arr [1; 3; 3])] =
  [Exc ValueError; Exc AttributeError].
Proof.
  intros c Hc. simpl in Hc.
  repeat (destruct Hc as [<-|Hc];
    [split; [intros H;
       match type of H with raises_not_fitted ?c =>
         assert (K := fun s => H dv dworld (pars []) [Fit (Arr [1; 2; 2; 2; 2])] "transform" s (Arr [1; 3; 3]));
         assert (N : no_success dworld c (new_obj (pars [])) [Fit (Arr [1; 2; 2; 2; 2])]);
         [apply no_success_steps_ok; simpl; repeat split; vm_compute; discriminate|];
         specialize (K _ N eq_refl); vm_compute in K; discriminate K
       end | vm_compute; reflexivity]|]).
  destruct Hc.
Qed.

(* The tree attributes that FirstSimpleGap and FirstHistogramGap document are not
   renewed by a fit on a single sample: those of an earlier fit remain. *)
Theorem stale_tree_refuted :
  forall c, In c [FirstSimpleGap; FirstHistogramGap] ->
  let fresh := seen dworld c (new_obj (pars [])) [Fit (Arr [1; 2]); Get "children_"] in
  let reused := seen dworld c (new_obj (pars [])) [Fit (Arr [4; 2]); Fit (Arr [1; 2]); Get "children_"] in
  fresh = [Self; Exc AttributeError] /\ reused = [Self; Self; Val (Arr [4; 2])].
Proof. intros c [<-|[<-|[]]]; vm_compute; split; reflexivity. Qed.

(* What the list of classes covers: 51 classes, all different; a class is robust,
   robust with the same hyperparameters or fragile, or has no method that reads
   what fit leaves. *)
Theorem classes_covered :
  List.length all_classes = 51 /\ NoDup (map c_name all_classes) /\
  forall c, In c all_classes ->
    In c robust \/ In c robust_same_params \/ In c fragile \/
    In c [FirstSimpleGap; FirstHistogramGap; ParallelClustering].
Proof.
  split; [reflexivity|]. split.
  - repeat (constructor; [simpl; intros H; repeat (destruct H as [H|H]; [discriminate H|]); exact H|]). constructor.
  - intros c H. unfold all_classes in H. simpl in H. unfold robust, robust_same_params, fragile.
    repeat (destruct H as [<-|H]; [simpl; tauto|]). destruct H.
Qed.

(* --- the attributes are there when they are needed ------------------------ *)

Definition lacksb (x : exn) : bool :=
  match x with NotFittedError | AttributeError | UnboundLocalError => true | _ => false end.
Lemma lacksb_spec x : lacksb x = true <-> lacks x.
Proof. unfold lacks. destruct x; simpl; split; intros H; auto; try discriminate; repeat (destruct H as [H|H]; try discriminate). Qed.

Fixpoint raises_ok (s : stmt) : bool :=
  match s with
  | Seq s t | If _ s t => raises_ok s && raises_ok t
  | For _ _ b => raises_ok b
  | Raise x => negb (lacksb x)
  | _ => true
  end.

Section Use.
  Context {V : Type} (w : world V) (par : string -> V).
  Hypothesis lib : forall n vs x, may w n vs = Err x -> ~ lacks x.

  Lemma eval_lacks A L a l e x : e_ok A L e = true ->
    (forall x, In x A -> bound a x) -> (forall x, In x L -> bound l x) ->
    eval w par a l e = Err x -> ~ lacks x.
  Proof.
    intros K HA HL E. destruct (reads_same par A L a a l l (e_reads e) K) as (vs & R & _).
    { intros y Hy. apply bound_same; auto. }
    { intros y Hy. apply bound_same; auto. }
    destruct e; simpl in *; rewrite R in E; [eapply lib; eauto|discriminate].
  Qed.

  Lemma exec_lacks s : forall A L n r a l a' l' x,
    da [] s A L = Some (n, r) -> raises_ok s = true ->
    (forall x, In x A -> bound a x) -> (forall x, In x L -> bound l x) ->
    exec w par s a l = (a', l', Fail x) -> ~ lacks x.
  Proof.
    induction s as [|s IHs t IHt|y e|y e|e s IHs t IHt|y e b IHb|y|ns|e];
      intros A L n r a l a' l' x D R HA HL E; simpl in D, R, E.
    - discriminate.
    - apply andb_true_iff in R. destruct R as [R1 R2].
      destruct (da [] s A L) as [[n1 r1]|] eqn:D1; [|discriminate].
      destruct (exec w par s a l) as [[a1 l1] o1] eqn:E1.
      pose proof (da_bound w par _ _ _ _ _ _ _ _ _ _ D1 HA HL E1) as (_ & _ & B).
      destruct o1 as [|v|z].
      + destruct n1 as [[A1 L1]|]; [|destruct B]. simpl in B. destruct B as [B1 B2].
        destruct (da [] t A1 L1) as [[n2 r2]|] eqn:D2; [|discriminate].
        exact (IHt _ _ _ _ _ _ _ _ _ D2 R2 B1 B2 E).
      + discriminate.
      + injection E as -> -> ->. exact (IHs _ _ _ _ _ _ _ _ _ D1 R1 HA HL E1).
    - destruct (e_ok A L e) eqn:K; [|discriminate]. destruct (eval w par a l e) eqn:Ev; [discriminate|].
      injection E as <- <- ->. exact (eval_lacks _ _ _ _ _ _ K HA HL Ev).
    - destruct (e_ok A L e) eqn:K; [|discriminate]. destruct (eval w par a l e) eqn:Ev; [discriminate|].
      injection E as <- <- ->. exact (eval_lacks _ _ _ _ _ _ K HA HL Ev).
    - apply andb_true_iff in R. destruct R as [R1 R2].
      destruct (e_ok A L e) eqn:K; [|discriminate].
      destruct (da [] s A L) as [[n1 r1]|] eqn:D1; [|discriminate].
      destruct (da [] t A L) as [[n2 r2]|] eqn:D2; [|discriminate].
      destruct (eval w par a l e) as [v|] eqn:Ev.
      + destruct (truth w v); [exact (IHs _ _ _ _ _ _ _ _ _ D1 R1 HA HL E)|exact (IHt _ _ _ _ _ _ _ _ _ D2 R2 HA HL E)].
      + injection E as <- <- ->. exact (eval_lacks _ _ _ _ _ _ K HA HL Ev).
    - destruct (e_ok A L e) eqn:K; [|discriminate].
      destruct (da [] b A (y :: L)) as [[n1 r1]|] eqn:D1; [|discriminate].
      destruct (eval w par a l e) as [v|] eqn:Ev.
      + clear Ev D n r. revert a l HA HL E.
        induction (items w v) as [|u us IH]; intros a l HA HL E; [discriminate|].
        destruct (exec w par b a (set l y u)) as [[a1 l1] o1] eqn:E1.
        assert (HL' : forall z, In z (y :: L) -> bound (set l y u) z).
        { intros z [<-|Hz]; [apply bound_set_eq|apply bound_set; auto]. }
        pose proof (da_bound w par _ _ _ _ _ _ _ _ _ _ D1 HA HL' E1) as (B1 & B2 & _).
        destruct o1 as [|v1|z].
        * apply (IH a1 l1); auto. intros z Hz. apply B2, bound_set; auto.
        * discriminate.
        * injection E as -> -> ->. exact (IHb _ _ _ _ _ _ _ _ _ D1 R HA HL' E1).
      + injection E as <- <- ->. exact (eval_lacks _ _ _ _ _ _ K HA HL Ev).
    - injection E as <- <- <-. intros Lk. apply lacksb_spec in Lk. rewrite Lk in R. discriminate.
    - assert (C : check_fitted a ns = true).
      { destruct ns as [ns|].
        - destruct (forallb (fun n0 => mem n0 A) ns) eqn:K; [|discriminate D]. simpl.
          rewrite forallb_forall in *. intros z Hz. apply K, mem_In in Hz. simpl in Hz.
          destruct (HA z Hz) as [v ->]. reflexivity.
        - destruct (existsb fitted_name A) eqn:K; [|discriminate].
          exact (existsb_bound A a K HA). }
      rewrite C in E. discriminate.
    - destruct (e_ok A L e) eqn:K; [|discriminate]. destruct (eval w par a l e) eqn:Ev; [discriminate|].
      injection E as <- <- ->. exact (eval_lacks _ _ _ _ _ _ K HA HL Ev).
  Qed.
End Use.

Definition check_usable (c : cls) : bool :=
  some (da [] (c_fit c) [] ["X"]) && raises_ok (c_fit c) && no_writes c &&
  match assigned c with
  | Some A => forallb (fun m => some (da [] (snd m) A ["X"]) && raises_ok (snd m)) (c_meths c)
  | None => false
  end.

Lemma check_usable_sound c : check_usable c = true -> usable_once_fitted c.
Proof.
  unfold check_usable. intros H. apply andb_true_iff in H. destruct H as [H HM].
  apply andb_true_iff in H. destruct H as [H HW]. apply andb_true_iff in H. destruct H as [Hf HR].
  destruct (assigned c) as [A|] eqn:HA; [|discriminate]. rewrite forallb_forall in HM.
  intros V w p0 h0 X0 lib o1. split.
  - intros x Fx. unfold fit_shows, run_fit in Fx.
    destruct (exec w (o_par o1) (c_fit c) (o_att o1) (set [] "X" X0)) as [[a' l'] q] eqn:E. simpl in Fx.
    destruct q as [|v|z]; try discriminate. injection Fx as ->.
    destruct (da [] (c_fit c) [] ["X"]) as [[n r]|] eqn:D; [|discriminate].
    apply (exec_lacks w (o_par o1) lib _ _ _ _ _ _ _ _ _ _ D HR (fun x (H : In x []) => match H with end) (locX1 X0) E).
  - intros Ok o2 h1.
    assert (B : forall x, In x A -> bound (o_att (after w c o2 h1)) x).
    { pose proof (fit_assigned w c o1 X0 A Hf HA Ok) as B0. fold o2 in B0. revert B0. generalize o2. clear -Hf HW.
      induction h1 as [|q h IH]; intros o B0; [exact B0|]. rewrite after_cons. apply IH.
      intros x Hx. destruct q as [p|X|m X|a]; simpl; auto.
      - apply (fit_bound w c o X Hf). auto.
      - unfold bound. rewrite (call_no_writes w c o m X HW). apply B0. auto. }
    intros m s X x Lk C. pose proof (HM _ (lookup_In _ _ _ Lk)) as K. simpl in K.
    apply andb_true_iff in K. destruct K as [K1 K2].
    destruct (da [] s A ["X"]) as [[n r]|] eqn:D; [|discriminate].
    unfold run_call in C. rewrite Lk in C.
    destruct (exec w (o_par (after w c o2 h1)) s (o_att (after w c o2 h1)) (set [] "X" X)) as [[a' l'] q] eqn:E.
    destruct q as [|v|z]; simpl in C; try discriminate. injection C as ->.
    apply (exec_lacks w _ lib _ _ _ _ _ _ _ _ _ _ D K2 B (locX1 X) E).
Qed.

Theorem fitted_object_is_usable : forall c, In c all_classes -> usable_once_fitted c.
Proof.
  assert (H : forallb check_usable all_classes = true) by (vm_compute; reflexivity).
  rewrite forallb_forall in H. intros c Hc. apply check_usable_sound, H, Hc.
Qed.

(* the concrete world above raises none of the three exceptions *)
Lemma dworld_lib : forall n vs x, may dworld n vs = Err x -> ~ lacks x.
Proof.
  assert (H : forall n vs, match dmay n vs with Err x => lacksb x = false | Ok _ => True end).
  { intros n vs. unfold dmay.
    repeat match goal with
           | |- context [if is n ?l then _ else _] =>
               destruct (is n l);
               [repeat (match goal with |- match (match ?v with _ => _ end) with _ => _ end => destruct v end;
                        try exact I; try reflexivity)|]
           end; exact I. }
  intros n vs x E K. apply lacksb_spec in K. specialize (H n vs). change (dmay n vs = Err x) in E.
  rewrite E in H. congruence.
Qed.

Print Assumptions fitted_object_is_usable.
Print Assumptions fit_forgets_the_past.
Print Assumptions failed_fit_is_invisible.
Print Assumptions failed_fit_is_invisible_same_params.
Print Assumptions unfitted_methods_raise_not_fitted.
Print Assumptions failed_fit_is_invisible_refuted.
