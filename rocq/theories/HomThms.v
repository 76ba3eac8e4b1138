(** Property theorems for the persistent homology transformers: C14 (weak alpha complexes), C15
    (cubical complexes), C16 (flagser) and C62 (transformers end to end). *)
From Coq Require Import Sorting.Permutation Sorting.Sorted.
From Verif Require Import Np NpFacts Fl FlFacts Nd NdFacts DiagModel DiagSpec DiagProofs3 DiagThms HomModel HomSpec HomProofs.
Open Scope Z_scope.

(** ** C62  What the transformers return *)

(** VietorisRipsPersistence (and WeightedRipsPersistence): ripser is asked for dimensions up to
    the largest requested one, and if it answers with one list for each, then the result lists,
    sample by sample and in the order of the input, its non-trivial points in each requested
    dimension, infinite deaths being replaced by infinity_values or max_edge_length. *)
Theorem vietoris_rips_spec :
  forall {A} (junk : pt) (ripser : Z -> fl -> A -> list (list (fl * fl))) dims max_edge_length
         infinity_values reduced (X : list A) hi,
    X <> [] -> NoDup dims -> (forall d, In d dims -> 0 <= d) -> greatest dims hi ->
    (forall x, In x X -> zlen (ripser hi max_edge_length x) = hi + 1) ->
    exists R, vr_fit_transform junk ripser dims max_edge_length infinity_values reduced X = Ok R /\
      is_diagrams_of (fun x dim =>
        nontrivial_rows reduced (match infinity_values with Some v => v | None => max_edge_length end)
          (ByDimension (ripser hi max_edge_length x)) dim) dims X R.
Proof.
  intros A junk ripser dims t inf reduced X hi HX HN Hd [Hhi Hmax] Hr.
  assert (Hne : dims <> []) by (intros ->; destruct Hhi).
  destruct (fit_transform_ok junk (fun f x => ByDimension (ripser (f_max f) t x)) dims t inf reduced X HX Hne HN)
    as [lo [hi' [f [_ [[I1 I2] [E [_ [E2 [_ [E4 H]]]]]]]]]].
  assert (Eh : hi' = hi) by (apply Z.le_antisymm; auto). rewrite Eh in E2. unfold vr_fit_transform. rewrite E. cbn [bind].
  rewrite E2, E4 in H. rewrite E2. apply H. intros x dim Hx Hdim. split; [now apply Hd|]. rewrite Hr by assumption. specialize (Hmax _ Hdim). lia.
Qed.

(** SparseRipsPersistence, EuclideanCechPersistence: the same for GUDHI, asked for simplices up to
    one dimension more; nothing is assumed about its answer. *)
Theorem gudhi_spec :
  forall {A} (junk : pt) (gudhi : fl -> Z -> A -> list (Z * (fl * fl))) dims max_edge_length
         infinity_values reduced (X : list A) hi,
    X <> [] -> NoDup dims -> (forall d, In d dims -> 0 <= d) -> greatest dims hi ->
    exists R, gudhi_fit_transform junk gudhi dims max_edge_length infinity_values reduced X = Ok R /\
      is_diagrams_of (fun x dim =>
        nontrivial_rows reduced (match infinity_values with Some v => v | None => max_edge_length end)
          (Tagged (gudhi max_edge_length (hi + 1) x)) dim) dims X R.
Proof.
  intros A junk gudhi dims t inf reduced X hi HX HN Hd [Hhi Hmax].
  assert (Hne : dims <> []) by (intros ->; destruct Hhi).
  destruct (fit_transform_ok junk (fun f x => Tagged (gudhi t (zmax_list (f_dims f) + 1) x)) dims t inf reduced X HX Hne HN)
    as [lo [hi' [f [_ [_ [E [_ [_ [E3 [E4 H]]]]]]]]]].
  assert (Ez : zmax_list (f_dims f) = hi).
  { assert (G : forall l, (forall d, In d l -> 0 <= d <= hi) -> (In hi l -> zmax_list l = hi) /\ 0 <= zmax_list l <= Z.max 0 hi).
    { induction l as [|a l IH]; intros Hl; [split; [intros []|cbn; lia]|]. destruct IH as [I1 I2]; [intros; apply Hl; now right|].
      specialize (Hl a (or_introl eq_refl)). change (zmax_list (a :: l)) with (Z.max a (zmax_list l)). split; [|lia].
      intros [->|I]; [lia|]. rewrite I1 by assumption. lia. }
    apply G; [|now apply E3]. intros d I. apply E3 in I. split; [now apply Hd|now apply Hmax]. }
  unfold gudhi_fit_transform. rewrite E. cbn [bind]. rewrite Ez, E4 in H. rewrite Ez. apply H.
  intros x dim Hx Hdim. split; [now apply Hd|exact I].
Qed.

(** The meaningful part of a sample's diagram does not depend on the other samples. *)
Theorem diagrams_sample_independent :
  forall {A} (points : A -> Z -> diagram) dims (X X' : list A) R R' i i' x r r' dim,
    is_diagrams_of points dims X R -> is_diagrams_of points dims X' R' ->
    Znth X i = Some x -> Znth X' i' = Some x -> Znth R i = Some r -> Znth R' i' = Some r' -> In dim dims ->
    meaningful (rows_of (fz dim) r) = meaningful (rows_of (fz dim) r').
Proof.
  intros A points dims X X' R R' i i' x r r' dim [_ [H _]] [_ [H' _]] E1 E2 E3 E4 Hd.
  rewrite (proj1 (H _ _ _ E1 E3) dim Hd). now rewrite (proj1 (H' _ _ _ E2 E4) dim Hd).
Qed.

(** Fitting without any homology dimension fails. *)
Theorem no_homology_dimensions :
  forall {A} (junk : pt) (ripser : Z -> fl -> A -> list (list (fl * fl))) t inf reduced (X : list A),
    vr_fit_transform junk ripser [] t inf reduced X = Err IndexError.
Proof. reflexivity. Qed.

(** A dimension requested twice: its points are listed twice. *)
Definition ex_ripser (maxdim : Z) (thresh : fl) (x : Z) : list (list (fl * fl)) :=
  [[(fz 0, fz x); (fz 0, PInf)]; [(fz 1, fz (x + 1))]].
Theorem repeated_dimension_refuted :
  exists dims (X : list Z) R r, (forall d, In d dims -> 0 <= d) /\
    vr_fit_transform (Pt NaN NaN NaN) ex_ripser dims (fz 9) None true X = Ok R /\ Znth R 0 = Some r /\
    exists x, Znth X 0 = Some x /\
      meaningful (rows_of (fz 1) r) <> nontrivial_rows true (fz 9) (ByDimension (ex_ripser 1 (fz 9) x)) 1.
Proof.
  exists [1; 1], [5]. eexists. eexists. split; [intros d [<-|[<-|[]]]; lia|]. split; [vm_compute; reflexivity|].
  split; [reflexivity|]. exists 5. split; [reflexivity|]. intros E. apply (f_equal (@zlen pt)) in E. vm_compute in E. discriminate.
Qed.

Example vietoris_rips_example :
  match vr_fit_transform (Pt NaN NaN NaN) ex_ripser [1; 0] (fz 9) None true [5; 3] with
  | Ok R => feqs (flatten R) (map fz [0;5;0; 1;6;1;  0;3;0; 1;4;1])
  | Err _ => false
  end = true /\
  match vr_fit_transform (Pt NaN NaN NaN) ex_ripser [0] (fz 9) None false [5; 3] with
  | Ok R => feqs (flatten R) (map fz [0;5;0; 0;9;0;  0;3;0; 0;9;0])
  | Err _ => false
  end = true /\ greatest [1; 0] 1 /\ NoDup [1; 0] /\ (forall x, zlen (ex_ripser 1 (fz 9) x) = 1 + 1).
Proof.
  split; [vm_compute; reflexivity|]. split; [vm_compute; reflexivity|]. split.
  - split; [now left|]. intros x [<-|[<-|[]]]; lia.
  - split; [repeat constructor; simpl; intuition lia|reflexivity].
Qed.

(** ** C16  Flagser's diagrams *)

(** The list handed over has an entry for each dimension up to the largest requested one; the
    entry of dimension d is flagser's list for d, empty when flagser has none. *)
Theorem flagser_list_spec :
  forall lo hi (flagser : Z -> Z -> list (list (fl * fl))),
    0 <= lo <= hi ->
    hi + 1 <= zlen (flagser_diagram lo hi flagser) /\
    (lo + zlen (flagser lo hi) <= hi + 1 -> zlen (flagser_diagram lo hi flagser) = hi + 1) /\
    (forall d, 0 <= d < lo -> Znth (flagser_diagram lo hi flagser) d = Some []) /\
    (forall d l, lo <= d -> Znth (flagser lo hi) (d - lo) = Some l ->
       Znth (flagser_diagram lo hi flagser) d = Some l) /\
    (forall d, lo <= d <= hi -> Znth (flagser lo hi) (d - lo) = None ->
       Znth (flagser_diagram lo hi flagser) d = Some []).
Proof.
  intros lo hi fl0 H. destruct (flagser_diagram_ok lo hi fl0 H) as [HL HN]. cbv zeta in *.
  pose proof (zlen_nonneg (fl0 lo hi)).
  split; [lia|]. split; [intros; lia|]. split; [|split].
  - intros d Hd. rewrite HN by lia. destruct (Z.ltb_spec d lo); [reflexivity|lia].
  - intros d l Hd El. pose proof (Znth_Some_lt _ _ _ El). rewrite HN by lia. destruct (Z.ltb_spec d lo); [lia|]. now rewrite El.
  - intros d Hd El. rewrite HN by lia. destruct (Z.ltb_spec d lo); [lia|]. now rewrite El.
Qed.

(** Flagser's points of dimension [d] in an answer starting at dimension [lo]. *)
Definition shifted (lo : Z) (answer : list (list (fl * fl))) : backend :=
  Tagged (concat (mapi (fun k l => map (fun bd => (lo + k, bd)) l) answer)).

Lemma flagser_points lo hi fl0 d : 0 <= lo <= hi -> lo <= d <= hi ->
  backend_points (ByDimension (flagser_diagram lo hi fl0)) d = backend_points (shifted lo (fl0 lo hi)) d.
Proof.
  intros H Hd. destruct (flagser_diagram_ok lo hi fl0 H) as [HL HN]. cbv zeta in *. pose proof (zlen_nonneg (fl0 lo hi)).
  unfold backend_points, shifted. rewrite HN by lia. destruct (Z.ltb_spec d lo); [lia|].
  generalize (fl0 lo hi) as L. clear - Hd. intros L. unfold mapi.
  assert (G : forall L a, map snd (filter (fun e : Z * (fl * fl) => fst e =? d) (concat (mapi_from a (fun k l => map (fun bd => (lo + k, bd)) l) L)))
              = match Znth L (d - lo - a) with Some s => s | None => [] end).
  { clear. induction L as [|s L IH]; intros a; [now rewrite Znth_None by (cbn; lia)|]. cbn [mapi_from concat]. rewrite filter_app, map_app, IH.
    destruct (Z.eq_dec (d - lo - a) 0) as [E|E].
    - rewrite E. change (Znth (s :: L) 0) with (Some s). rewrite (Znth_None L) by lia. rewrite app_nil_r.
      assert (lo + a = d) by lia. clear - H. induction s as [|bd s IH]; [reflexivity|]. cbn [map filter fst]. destruct (Z.eqb_spec (lo + a) d); [|contradiction]. cbn [map snd]. now rewrite IH.
    - replace (filter _ _) with (@nil (Z * (fl * fl))).
      + cbn [map app]. destruct (Z_lt_ge_dec (d - lo - a) 0); [now rewrite !Znth_None by lia|].
        replace (d - lo - a) with (1 + (d - lo - (a + 1))) by lia. now rewrite CoverProofs.Znth_S by lia.
      + clear - E. induction s as [|bd s IH]; [reflexivity|]. cbn [map filter fst]. destruct (Z.eqb_spec (lo + a) d); [lia|exact IH]. }
  rewrite (G L 0). now rewrite Z.sub_0_r.
Qed.

(** End to end: whatever the number of dimensions in flagser's answer, the result has the points
    flagser lists for each requested dimension (for reduced homology without the last point of
    dimension 0). *)
Theorem flagser_spec :
  forall {A} (junk : pt) (flagser : A -> Z -> Z -> list (list (fl * fl))) dims max_edge_weight
         infinity_values reduced (X : list A) lo hi,
    X <> [] -> NoDup dims -> (forall d, In d dims -> 0 <= d) -> least dims lo -> greatest dims hi ->
    exists R, flagser_fit_transform junk flagser dims max_edge_weight infinity_values reduced X = Ok R /\
      is_diagrams_of (fun x dim =>
        meaningful (map (fun bd =>
          let inf := match infinity_values with Some v => v | None => max_edge_weight end in
          Pt (finite_value inf (fst bd)) (finite_value inf (snd bd)) (fz dim))
          (let l := backend_points (shifted lo (flagser x lo hi)) dim in
           if reduced && (dim =? 0) then removelast l else l))) dims X R.
Proof.
  intros A junk flagser dims t inf reduced X lo hi HX HN Hd [Hlo Hmin] [Hhi Hmax].
  assert (Hne : dims <> []) by (intros ->; destruct Hhi).
  destruct (fit_transform_ok junk (fun f x => ByDimension (flagser_diagram (f_min f) (f_max f) (flagser x))) dims t inf reduced X HX Hne HN)
    as [lo' [hi' [f [[I1 I2] [[I3 I4] [E [E1 [E2 [_ [E4 H]]]]]]]]]].
  assert (Eh : hi' = hi) by (apply Z.le_antisymm; auto). assert (El : lo' = lo) by (apply Z.le_antisymm; auto). rewrite Eh in E2. rewrite El in E1.
  assert (Hlh : 0 <= lo <= hi) by (split; [now apply Hd|now apply Hmax]).
  unfold flagser_fit_transform. rewrite E. cbn [bind]. rewrite E1, E2, E4 in H. rewrite E1, E2.
  destruct H as [R [ER HR]].
  - intros x dim Hx Hdim. split; [now apply Hd|]. pose proof (proj1 (flagser_list_spec lo hi (flagser x) Hlh)). specialize (Hmax _ Hdim). lia.
  - exists R. split; [exact ER|]. eapply is_diagrams_of_ext; [reflexivity| |exact HR].
    intros x dim Hx Hdim. cbv beta. unfold nontrivial_rows. rewrite (flagser_points lo hi (flagser x) dim Hlh) by (split; [now apply Hmin|now apply Hmax]).
    cbn [without_infinite_class]. cbv zeta. unfold meaningful. destruct inf; reflexivity.
Qed.

(** Dimensions 1 and 3 requested, flagser answers for 1 and 2 only. *)
Example flagser_example :
  match flagser_fit_transform (Pt NaN NaN NaN)
          (fun (x lo hi : Z) => [[(fz 0, fz x)]; [(fz 1, fz 2)]]) [3; 1] (fz 9) None true [5; 4] with
  | Ok R => feqs (flatten R) (map fz [0;5;1; 0;0;3;  0;4;1; 0;0;3])
  | Err _ => false
  end = true /\ least [3; 1] 1 /\ greatest [3; 1] 3.
Proof.
  split; [vm_compute; reflexivity|]. split; (split; [simpl; tauto|]); intros x [<-|[<-|[]]]; lia.
Qed.

(** ** C14  Weak alpha complexes *)

(** If every point has a Delaunay neighbour, the entries are exactly the pairs i < j of neighbours
    with their distance, each once. *)
Theorem weak_alpha_spec :
  forall {W} (dist : Z -> Z -> W) neighbours indptr indices,
    csr neighbours indptr indices -> neighbours <> [] -> (forall r, In r neighbours -> r <> []) ->
    exists E, weak_alpha_entries dist indptr indices = Ok E /\
      (forall i j w, In (i, j, w) E <->
         exists r, Znth neighbours i = Some r /\ In j r /\ i < j /\ w = dist i j) /\
      ((forall r, In r neighbours -> NoDup r) -> NoDup E).
Proof.
  intros W dist nb indptr indices H Hne Hall. destruct nb as [|r0 rest]; [easy|].
  assert (Hlast : last rest [0] <> []).
  { destruct rest as [|a l] eqn:El; [discriminate|]. apply Hall. right. destruct (exists_last (l := a :: l)) as [l' [b E]]; [discriminate|].
    rewrite E, last_last. apply in_or_app. right. now left. }
  eexists. split; [exact (weak_alpha_ok dist r0 rest indptr indices H Hlast)|].
  assert (Ef : filter nonempty rest = rest).
  { clear - Hall. assert (Hr : forall r, In r rest -> r <> []) by (intros; apply Hall; now right). clear Hall. induction rest as [|r t IH]; [reflexivity|]. cbn [filter].
    assert (nonempty r = true) as -> by (specialize (Hr r (or_introl eq_refl)); destruct r; [easy|reflexivity]). f_equal. apply IH. intros; apply Hr; now right. }
  rewrite Ef. split; [|intros; now apply NoDup_entries].
  intros i j w. rewrite In_concat_mapi. split.
  - intros [k [r [Hk I]]]. apply In_row_entries in I. rewrite Z.add_0_l in I. destruct I as [-> [I1 [I2 I3]]]. exists r. auto.
  - intros [r [Hr [I1 [I2 I3]]]]. exists i, r. split; [assumption|]. apply In_row_entries. rewrite Z.add_0_l. auto.
Qed.

(** In general the points other than the first without neighbours are skipped when the rows are
    numbered, so that the entries of all later points are attributed to an earlier point... *)
Theorem weak_alpha_isolated_spec :
  forall {W} (dist : Z -> Z -> W) r0 rest indptr indices,
    csr (r0 :: rest) indptr indices -> last rest [0] <> [] ->
    exists E, weak_alpha_entries dist indptr indices = Ok E /\
      forall i j w, In (i, j, w) E <->
        exists r, Znth (r0 :: filter (fun r => negb (zlen r =? 0)) rest) i = Some r /\
          In j r /\ i < j /\ w = dist i j.
Proof.
  intros W dist r0 rest indptr indices H Hlast. eexists. split; [exact (weak_alpha_ok dist r0 rest indptr indices H Hlast)|].
  assert (Ef : filter (fun r => negb (zlen r =? 0)) rest = filter nonempty rest).
  { apply filter_ext. intros [|a r]; [reflexivity|]. rewrite zlen_cons. pose proof (zlen_nonneg r). cbn [nonempty].
    destruct (Z.eqb_spec (zlen r + 1) 0); [lia|reflexivity]. }
  rewrite Ef. intros i j w. rewrite In_concat_mapi. split.
  - intros [k [r [Hk I]]]. apply In_row_entries in I. rewrite Z.add_0_l in I. destruct I as [-> [I1 [I2 I3]]]. exists r. auto.
  - intros [r [Hr [I1 [I2 I3]]]]. exists i, r. split; [assumption|]. apply In_row_entries. rewrite Z.add_0_l. auto.
Qed.

(** ... so the property fails: with points 0, 2, 3 triangulated and point 1 a duplicate left out, the
    edge of 2 and 3 is lost and points 1 and 3 are joined ... *)
Definition ex_neighbours : list (list Z) := [[2; 3]; []; [0; 3]; [0; 2]].
Theorem weak_alpha_duplicate_refuted :
  exists neighbours indptr indices E, csr neighbours indptr indices /\
    weak_alpha_entries (fun i j => (i, j)) indptr indices = Ok E /\
    (exists i j w, In (i, j, w) E /\ ~ exists r, Znth neighbours i = Some r /\ In j r) /\
    (exists i j r, Znth neighbours i = Some r /\ In j r /\ i < j /\ forall w, ~ In (i, j, w) E).
Proof.
  exists ex_neighbours, [0; 2; 2; 4; 6], [2; 3; 0; 3; 0; 2]. eexists. split; [|split; [vm_compute; reflexivity|split]].
  - split; [reflexivity|]. split; [reflexivity|]. split; [reflexivity|].
    intros k r a b Hr Ha Hb. pose proof (Znth_Some_lt _ _ _ Hr) as Hk. change (zlen ex_neighbours) with 4 in Hk.
    assert (C : k = 0 \/ k = 1 \/ k = 2 \/ k = 3) by lia.
    destruct C as [->|[->|[->| ->]]]; cbn in Hr, Ha, Hb; injection Hr as <-; injection Ha as <-; injection Hb as <-; reflexivity.
  - exists 1, 3, (1, 3). split; [simpl; tauto|]. intros [r [Hr I]]. cbn in Hr. injection Hr as <-. destruct I.
  - exists 2, 3, [0; 3]. split; [reflexivity|]. split; [simpl; tauto|]. split; [lia|].
    intros w I. simpl in I. intuition congruence.
Qed.
(** ... and if the last point has no neighbours, the transformer fails. *)
Theorem weak_alpha_last_isolated :
  forall {W} (dist : Z -> Z -> W) r0 rows indptr indices,
    csr (r0 :: rows ++ [[]]) indptr indices -> weak_alpha_entries dist indptr indices = Err IndexError.
Proof. intros W. exact weak_alpha_err. Qed.

Example weak_alpha_example :
  weak_alpha_entries (fun i j => 10 * i + j) [0; 2; 4; 6] [1; 2; 0; 2; 1; 0] =
    Ok [(0, 1, 1); (0, 2, 2); (1, 2, 12)] /\ csr [[1; 2]; [0; 2]; [1; 0]] [0; 2; 4; 6] [1; 2; 0; 2; 1; 0].
Proof.
  split; [vm_compute; reflexivity|]. split; [reflexivity|]. split; [reflexivity|]. split; [reflexivity|].
  intros k r a b Hr Ha Hb. pose proof (Znth_Some_lt _ _ _ Hr) as Hk. change (zlen [[1; 2]; [0; 2]; [1; 0]]) with 3 in Hk.
  assert (C : k = 0 \/ k = 1 \/ k = 2) by lia.
  destruct C as [->|[->| ->]]; cbn in Hr, Ha, Hb; injection Hr as <-; injection Ha as <-; injection Hb as <-; reflexivity.
Qed.

(** ** C15  Cubical complexes *)

(** The values in a collection of images. *)
Definition pixel (X : images) (v : fl) : Prop :=
  match X with ArrayOf a => In v (ndata a) | ListOf l => exists a, In a l /\ In v (ndata a) end.
Definition has_pixels (X : images) : Prop :=
  match X with ArrayOf a => ndata a <> [] | ListOf l => l <> [] /\ forall a, In a l -> ndata a <> [] end.
Definition number_of_images (X : images) (n : Z) : Prop :=
  match X with ArrayOf a => exists s, nshape a = n :: s | ListOf l => zlen l = n end.

Lemma images_max X : has_pixels X -> (forall v, pixel X v -> isnan v = false) ->
  exists m, match X with ArrayOf a => np_max (ndata a)
            | ListOf l => do ms <- mapM (fun a => np_max (ndata a)) l; py_max ms end = Ok m /\
    pixel X m /\ forall v, pixel X v -> fle v m = true.
Proof.
  destruct X as [a|l]; cbn [has_pixels pixel].
  - intros Hp Hn. destruct (np_max_spec _ Hp Hn) as [m [E [I M]]]. exists m. auto.
  - intros [Hl Hp] Hn.
    assert (G : exists ms, mapM (fun a : nd fl => np_max (ndata a)) l = Ok ms /\
      (forall m, In m ms -> exists a, In a l /\ In m (ndata a)) /\
      (forall a v, In a l -> In v (ndata a) -> exists m, In m ms /\ fle v m = true)).
    { clear Hl. induction l as [|a l IH].
      - exists []. split; [reflexivity|]. split; [intros m []|intros a v []].
      - destruct IH as [ms [E [H1 H2]]]; [intros; apply Hp; now right|intros v [b [Hb Hv]]; apply Hn; exists b; split; [now right|assumption]|].
        destruct (np_max_spec (ndata a)) as [m [Em [Im Mm]]]; [apply Hp; now left|intros y Hy; apply Hn; exists a; split; [now left|assumption]|].
        exists (m :: ms). cbn [mapM]. rewrite Em, E. split; [reflexivity|]. split.
        + intros m' [<-|Hm]; [exists a; split; [now left|assumption]|]. destruct (H1 m' Hm) as [b [Hb Hv]]. exists b. split; [now right|assumption].
        + intros b v [<-|Hb] Hv; [exists m; split; [now left|now apply Mm]|]. destruct (H2 b v Hb Hv) as [m' [I1 I2]]. exists m'. split; [now right|assumption]. }
    destruct G as [ms [E [H1 H2]]]. rewrite E. cbn [bind].
    destruct (py_max_ok ms) as [m [Em [Im Mm]]].
    + destruct l as [|a l]; [easy|]. destruct (ndata a) as [|v d] eqn:Ed; [now elim (Hp a (or_introl eq_refl))|].
      destruct (H2 a v (or_introl eq_refl)) as [m [I _]]; [rewrite Ed; now left|]. intros ->. destruct I.
    + intros y Hy. apply Hn. now apply H1.
    + exists m. split; [exact Em|]. split; [now apply H1|]. intros v [a [Ha Hv]]. destruct (H2 a v Ha Hv) as [m' [I1 I2]].
      specialize (Mm m' I1). revert I2 Mm. clear. destruct v as [| |q1|], m' as [| |q2|], m as [| |q3|]; cbn; try easy. rewrite !Qcleb_le. intros; qlra.
Qed.

(** What fit computes: the sorted dimensions, infinity_values_ (the given value or the largest
    pixel), and the periodic axes. *)
Theorem cubical_fit_spec :
  forall dims periodic infinity_values X n,
    dims <> [] -> number_of_images X n -> 1 <= n -> has_pixels X -> (forall v, pixel X v -> isnan v = false) ->
    exists c, cubical_fit dims periodic infinity_values X = Ok c /\
      Permutation dims (f_dims (c_fit c)) /\ StronglySorted Z.le (f_dims (c_fit c)) /\
      match infinity_values with
      | Some v => f_inf (c_fit c) = v
      | None => pixel X (f_inf (c_fit c)) /\ forall v, pixel X v -> fle v (f_inf (c_fit c)) = true
      end /\
      match periodic with
      | Some l => if existsb (fun b => b) l then c_periodic_dimensions c = l /\ c_is_periodic c = true
                  else c_periodic_dimensions c = repeat false (Z.to_nat (n - 1)) /\ c_is_periodic c = false
      | None => c_periodic_dimensions c = repeat false (Z.to_nat (n - 1)) /\ c_is_periodic c = false
      end.
Proof.
  intros dims periodic inf X n Hd Hn Hn1 Hp Hnan. unfold cubical_fit.
  assert (En : n_images X = n).
  { destruct X as [a|l]; cbn in *; [|assumption]. destruct Hn as [s ->]. reflexivity. }
  rewrite En. unfold np_zeros_bool. destruct (Z.ltb_spec (n - 1) 0); [lia|].
  assert (Ef : forall l, (zlen (filter (fun b : bool => b) l) =? 0) = negb (existsb (fun b => b) l)).
  { intros l. destruct (existsb (fun b => b) l) eqn:E.
    - apply existsb_exists in E. destruct E as [b [I ->]]. cbn. apply Z.eqb_neq. intros Hz.
      assert (I' : In true (filter (fun b : bool => b) l)) by (apply filter_In; auto).
      apply length_zero_iff_nil in Hz || (destruct (filter (fun b : bool => b) l); [destruct I'|]; rewrite zlen_cons in Hz; pose proof (zlen_nonneg l0); lia).
    - cbn. apply Z.eqb_eq. assert (filter (fun b : bool => b) l = []) as ->; [|reflexivity].
      destruct (filter (fun b : bool => b) l) as [|b l'] eqn:F; [reflexivity|]. assert (I : In b (filter (fun b : bool => b) l)) by (rewrite F; now left).
      apply filter_In in I. destruct I as [I ->]. assert (existsb (fun b => b) l = true) by (apply existsb_exists; eauto). congruence. }
  assert (Einf : exists i, match inf with
            | None => match X with
                      | ArrayOf a => np_max (ndata a)
                      | ListOf l => do ms <- mapM (fun a => np_max (ndata a)) l; py_max ms
                      end
            | Some v => Ok v
            end = Ok i /\ match inf with Some v => i = v | None => pixel X i /\ forall v, pixel X v -> fle v i = true end).
  { destruct inf as [v|]; [exists v; auto|]. destruct (images_max X Hp Hnan) as [m [E [I M]]]. exists m. auto. }
  destruct Einf as [i [Ei Hi]]. rewrite Ei.
  destruct (hom_fit_ok dims i None Hd) as [lo [hi [_ [_ Eh]]]]. 
  assert (Hs : StronglySorted Z.le (sorted_ints dims)).
  { pose proof (sorted_ints_sorted dims) as S. clear - S. induction S as [|a l S IH F]; constructor; [assumption|]. eapply Forall_impl; [|exact F]. intros b Hb. cbv beta in Hb. lia. }
  destruct periodic as [l|].
  - rewrite Ef. destruct (existsb (fun b => b) l) eqn:El; cbn [negb bind]; rewrite Eh; cbn [bind]; eexists; (split; [reflexivity|]); cbn [c_fit f_dims f_inf c_periodic_dimensions c_is_periodic fst snd];
      (split; [apply sorted_ints_perm|]); (split; [exact Hs|]); (split; [destruct inf; exact Hi|split; reflexivity]).
  - cbn [bind]. rewrite Eh. cbn [bind]. eexists. split; [reflexivity|]. cbn [c_fit f_dims f_inf c_periodic_dimensions c_is_periodic fst snd].
    split; [apply sorted_ints_perm|]. split; [exact Hs|]. split; [destruct inf; exact Hi|split; reflexivity].
Qed.

(** So periodic_dimensions_ does not have one entry per axis of the images: a collection of two
    images with two axes gives one entry. *)
Theorem periodic_dimensions_refuted :
  exists a c, wf a /\ nshape a = [2; 3; 3] /\ cubical_fit [0; 1] None None (ArrayOf a) = Ok c /\
    zlen (c_periodic_dimensions c) = 1.
Proof.
  exists (mk [2; 3; 3] (fun _ => fz 1)). eexists. split; [apply wf_mk; intros n [<-|[<-|[<-|[]]]]; lia|].
  split; [reflexivity|]. split; [vm_compute; reflexivity|]. reflexivity.
Qed.

(** GUDHI receives the shape of the image, and its pixels with the first index moving fastest,
    whatever the number of axes; and the periodic axes if and only if there are any. *)
Theorem cubical_arguments_spec :
  forall (c : cubical) (x : nd fl), wf x ->
    exists cells, cubical_arguments c x =
        (nshape x, cells, if c_is_periodic c then Some (c_periodic_dimensions c) else None) /\
      zlen cells = zlen (ndata x) /\
      forall idx, inside (nshape x) idx = true ->
        exists v, nget x idx = Some v /\ Znth cells (column_major (nshape x) idx) = Some (Some v).
Proof.
  intros c x H. exists (flatten_F x). split; [reflexivity|]. destruct (flatten_F_ok x H) as [HL HN]. split; [exact HL|].
  intros idx Hi. destruct (at_Some x idx H Hi) as [v Hv]. exists v. split; [assumption|]. now rewrite HN, Hv.
Qed.

(** End to end. *)
Theorem cubical_spec :
  forall (junk : pt) gudhi dims periodic infinity_values reduced F n (X : list (nd fl)),
    dims <> [] -> number_of_images F n -> 1 <= n -> has_pixels F -> (forall v, pixel F v -> isnan v = false) ->
    X <> [] -> NoDup dims -> (forall d, In d dims -> 0 <= d) ->
    exists c R, cubical_fit dims periodic infinity_values F = Ok c /\
      cubical_transform junk gudhi c reduced X = Ok R /\
      is_diagrams_of (fun x dim =>
        nontrivial_rows reduced (f_inf (c_fit c)) (Tagged (gudhi (cubical_arguments c x))) dim) dims X R.
Proof.
  intros junk gudhi dims periodic inf reduced F n X Hd H1 H2 H3 H4 HX HN Hp.
  destruct (cubical_fit_spec dims periodic inf F n Hd H1 H2 H3 H4) as [c [E [P [S _]]]]. exists c.
  destruct (transform_ok junk (fun x => Tagged (gudhi (cubical_arguments c x))) (c_fit c) reduced X HX) as [R [ER HR]].
  - intros E0. rewrite E0 in P. apply Hd, Permutation_nil. now symmetry.
  - eapply Permutation_NoDup; eassumption.
  - intros x dim _ Hdim. split; [|exact I]. apply Hp. eapply Permutation_in; [symmetry; exact P|assumption].
  - exists R. split; [exact E|]. split; [exact ER|]. eapply is_diagrams_of_ext; [|reflexivity|exact HR].
    intros dim. split; apply Permutation_in; [now symmetry|assumption].
Qed.

Definition ex_image : nd fl := Nd [2; 3] (map fz [1; 2; 3; 4; 5; 6]).
Example cubical_example :
  match cubical_fit [1; 0] (Some [true; false]) None (ListOf [ex_image]) with
  | Ok c => feqs [f_inf (c_fit c)] [fz 6] && c_is_periodic c && (zlen (c_periodic_dimensions c) =? 2) &&
      match cubical_arguments c ex_image with
      | (s, cells, Some [true; false]) => feqs (map (fun o => match o with Some v => v | None => NaN end) cells) (map fz [1; 4; 2; 5; 3; 6])
      | _ => false
      end
  | Err _ => false
  end = true /\ wf ex_image /\ has_pixels (ListOf [ex_image]) /\ number_of_images (ListOf [ex_image]) 1.
Proof.
  split; [vm_compute; reflexivity|]. split; [split; [intros n [<-|[<-|[]]]; lia|reflexivity]|].
  split; [split; [discriminate|intros a [<-|[]]; discriminate]|reflexivity].
Qed.

Print Assumptions vietoris_rips_spec.
Print Assumptions flagser_spec.
Print Assumptions weak_alpha_isolated_spec.
Print Assumptions cubical_spec.
