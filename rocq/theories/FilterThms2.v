(** C64: Projection; C65: callables on rows, method_to_transform. *)
From Coq Require Import Reals Lra Permutation.
From Verif Require Import Np NpFacts Fl FlFacts RNp FeatModel FilterModel FilterSpec FilterThms CurveThms2.
From Verif Require GraphProofs CoverProofs3 CoverModel.
Open Scope Z_scope.

(** ** Projection of arrays *)
Lemma py_get_column {A} (row : list A) c v : py_get row c = Ok v <-> exists p, column_position (zlen row) c p /\ Znth row p = Some v.
Proof.
  unfold py_get. split.
  - destruct (Znth row _) as [x|] eqn:E; [|discriminate]. intros H. injection H as ->. exists (if c <? 0 then c + zlen row else c). split; [|assumption].
    pose proof (Znth_Some_lt _ _ _ E). split; [assumption|]. destruct (Z.ltb_spec c 0); lia.
  - intros [p [[B C] H]]. replace (if c <? 0 then c + zlen row else c) with p; [now rewrite H|]. destruct (Z.ltb_spec c 0); lia.
Qed.
Lemma py_get_range {A} (row : list A) c : - zlen row <= c < zlen row -> exists v, py_get row c = Ok v.
Proof.
  intros H. unfold py_get. destruct (Znth_ex row (if c <? 0 then c + zlen row else c)) as [v Hv]; [destruct (Z.ltb_spec c 0); lia|]. rewrite Hv. eauto.
Qed.
Lemma py_get_out {A} (row : list A) c : ~ - zlen row <= c < zlen row -> py_get row c = Err IndexError.
Proof. intros H. unfold py_get. rewrite Znth_None; [reflexivity|]. destruct (Z.ltb_spec c 0); lia. Qed.
Lemma projection_eq cols X T n d : finite_table X T n d -> projection cols X = mapM (fun row => mapM (py_get row) (column_list cols)) T.
Proof.
  intros F. unfold projection. rewrite (check_ok _ _ _ _ F). cbn [bind]. destruct cols as [c|l]; [|reflexivity]. apply mapM_ext. intros row _. cbn. reflexivity.
Qed.
Lemma mapM_ex {A B} (f : A -> res B) l : (forall x, In x l -> exists y, f x = Ok y) -> exists r, mapM f l = Ok r.
Proof.
  induction l as [|a l IH]; intros H; [cbn; eauto|]. cbn [mapM]. destruct (H a (or_introl eq_refl)) as [y ->]. destruct IH as [r ->]; [intros; apply H; now right|]. cbn. eauto.
Qed.
(** Row i of the output lists the entries of row i in the requested columns, in the requested order. *)
Theorem projection_spec cols X T n d : finite_table X T n d -> (forall c, In c (column_list cols) -> - d <= c < d) ->
  exists out, projection cols X = Ok out /\
    Forall2 (fun row o => Forall2 (fun c v => exists p, column_position d c p /\ Znth row p = Some v) (column_list cols) o) T out.
Proof.
  intros F H. rewrite (projection_eq cols X T n d F). destruct F as [[_ [_ [_ HT]]] _]. destruct (mapM_ex (fun row => mapM (py_get row) (column_list cols)) T) as [out E].
  - intros row Hr. apply mapM_ex. intros c Hc. apply py_get_range. rewrite (HT row Hr). auto.
  - exists out. split; [assumption|]. apply mapM_iff in E. refine (proj1 (Forall2_iff' _ _ T out _) E). intros row o Hr. rewrite mapM_iff. apply Forall2_iff'. intros c v _.
    rewrite py_get_column, (HT row Hr). reflexivity.
Qed.
Theorem projection_out_of_range cols X T n d : finite_table X T n d -> (exists c, In c (column_list cols) /\ ~ - d <= c < d) ->
  projection cols X = Err IndexError.
Proof.
  intros F [c [Hc H]]. rewrite (projection_eq cols X T n d F). destruct F as [[Hn [_ [L HT]]] _]. destruct T as [|row T]; [cbn in L; lia|]. cbn [mapM].
  assert (E : mapM (py_get row) (column_list cols) = Err IndexError); [|now rewrite E]. specialize (HT row (or_introl eq_refl)). induction (column_list cols) as [|a l IH]; [easy|]. cbn [mapM].
  destruct Hc as [->|Hc]; [rewrite py_get_out by lia; reflexivity|]. rewrite (IH Hc). unfold py_get. destruct (Znth row _); reflexivity.
Qed.

(** ** Projection of data frames *)
Lemma positions_In f c l : positions f c = Ok l -> forall p, In p l <-> carries f c p.
Proof.
  unfold positions, carries. destruct (filter _ _) as [|a t] eqn:E; [discriminate|]. intros H. injection H as <-. intros p. rewrite <- E, filter_In, In_arange. split.
  - intros [_ H]. destruct (Znth (labels f) p); [|discriminate]. apply Z.eqb_eq in H. now subst.
  - intros H. split; [eapply Znth_Some_lt; eassumption|]. rewrite H. apply Z.eqb_refl.
Qed.
Lemma positions_missing f c : (forall p, ~ carries f c p) -> positions f c = Err KeyError.
Proof.
  intros H. unfold positions. destruct (filter _ _) as [|a t] eqn:E; [reflexivity|]. exfalso. assert (I : In a (a :: t)) by now left. rewrite <- E in I. apply filter_In in I. destruct I as [_ I].
  destruct (Znth (labels f) a) as [c'|] eqn:G; [|discriminate]. apply Z.eqb_eq in I. subst. now apply (H a).
Qed.
Lemma positions_single f c p : NoDup (labels f) -> carries f c p -> positions f c = Ok [p].
Proof.
  intros N C. destruct (positions f c) as [l|e] eqn:E.
  - pose proof (positions_In _ _ _ E) as I. assert (ND : NoDup l).
    { unfold positions in E. destruct (filter _ _) as [|a t] eqn:G; [discriminate|]. injection E as <-. rewrite <- G. apply NoDup_filter, NoDup_arange. }
    f_equal. destruct l as [|a [|b l]].
    + exfalso. now apply (I p).
    + f_equal. assert (Ca : carries f c a) by (apply I; now left). exact (GraphProofs.NoDup_Znth _ _ _ _ N Ca C).
    + exfalso. assert (Ca : carries f c a) by (apply I; now left). assert (Cb : carries f c b) by (apply I; right; now left).
      pose proof (GraphProofs.NoDup_Znth _ _ _ _ N Ca Cb). subst. inversion ND as [|? ? NI _]. apply NI. now left.
  - exfalso. unfold positions in E. destruct (filter _ _) as [|a t] eqn:G; [|discriminate]. assert (I : In p []); [|easy]. rewrite <- G. apply filter_In. rewrite In_arange.
    unfold carries in C. rewrite C, Z.eqb_refl. split; [eapply Znth_Some_lt; eassumption|reflexivity].
Qed.
Lemma carries_dec f c : (exists p, carries f c p) \/ forall p, ~ carries f c p.
Proof.
  destruct (positions f c) as [l|] eqn:E.
  - left. pose proof (positions_In _ _ _ E) as I. unfold positions in E. destruct (filter _ _) as [|a t] eqn:G; [discriminate|]. injection E as <-. exists a. apply I. now left.
  - right. intros p C. unfold positions in E. destruct (filter _ _) as [|a t] eqn:G; [|discriminate]. assert (I : In p []); [|easy]. rewrite <- G. apply filter_In. rewrite In_arange.
    unfold carries in C. rewrite C, Z.eqb_refl. split; [eapply Znth_Some_lt; eassumption|reflexivity].
Qed.
Lemma positions_list f cols ps : NoDup (labels f) -> Forall2 (carries f) cols ps -> mapM (positions f) cols = Ok (map (fun p => [p]) ps).
Proof.
  intros N F. apply mapM_iff. induction F as [|c p cols ps H F IH]; cbn [map]; constructor; [now apply positions_single|assumption].
Qed.
Lemma carries_list f cols : (forall c, In c cols -> exists p, carries f c p) -> exists ps, Forall2 (carries f) cols ps.
Proof.
  induction cols as [|c cols IH]; intros H; [exists []; constructor|]. destruct (H c (or_introl eq_refl)) as [p Hp]. destruct IH as [ps Hps]; [intros; apply H; now right|].
  exists (p :: ps). now constructor.
Qed.
Lemma cell_value_ok c v : cell_value c = Ok v <-> c = Number (XFin v).
Proof. split; intros H; [destruct c as [[]|]; cbn in H; try discriminate; injection H as ->; reflexivity|subst; reflexivity]. Qed.
Lemma select_rows f ps : (forall p, In p ps -> 0 <= p < zlen (labels f)) -> well_formed f ->
  exists rows, mapM (fun row => mapM (py_get row) ps) (cells f) = Ok rows /\
    Forall2 (fun row r => Forall2 (fun p c => Znth row p = Some c) ps r) (cells f) rows.
Proof.
  intros B W. destruct (mapM_ex (fun row => mapM (py_get row) ps) (cells f)) as [rows E].
  - intros row Hr. apply mapM_ex. intros p Hp. apply py_get_range. rewrite (W row Hr). specialize (B p Hp). lia.
  - exists rows. split; [assumption|]. apply mapM_iff in E. refine (proj1 (Forall2_iff' _ _ _ _ _) E). intros row r Hr. rewrite mapM_iff. apply Forall2_iff'. intros p c Hp. specialize (B p Hp).
    rewrite py_get_column. split; [intros [q [[Bq C] H]]; replace p with q by lia; assumption|]. intros H. exists p. split; [|assumption]. split; [eapply Znth_Some_lt; eassumption|now left].
Qed.
Lemma Forall2_comp {A B C} (P : A -> B -> Prop) (Q : B -> C -> Prop) (S : A -> C -> Prop) l m r : Forall2 P l m -> (forall a b c, In a l -> P a b -> (Q b c <-> S a c)) ->
  (Forall2 Q m r <-> Forall2 S l r).
Proof.
  intros F. revert r. induction F as [|a b l m H F IH]; intros r E; [split; intros G; inversion G; constructor|].
  split; intros G; inversion G; subst; constructor; try (eapply E; [now left|eassumption|assumption]); apply IH; auto; intros; eapply E; eauto; now right.
Qed.
Lemma frame_transform_eq f cols ps : well_formed f -> NoDup (labels f) -> cells f <> [] -> column_list cols <> [] -> Forall2 (carries f) (column_list cols) ps ->
  exists rows, projection_frame_transform cols f = mapM (mapM cell_value) rows /\
    Forall2 (fun row r => Forall2 (fun p c => Znth row p = Some c) ps r) (cells f) rows.
Proof.
  intros W N NE NC F. destruct (select_rows f ps) as [rows [E S]]; [|assumption|].
  - intros p Hp. apply In_Znth in Hp. destruct Hp as [k [_ Hk]]. destruct (Znth_ex (column_list cols) k) as [c Hc]; [rewrite (Forall2_zlen _ _ _ F); eapply Znth_Some_lt; eassumption|].
    pose proof (Forall2_Znth _ _ _ _ _ _ F Hc Hk) as H. eapply Znth_Some_lt. eassumption.
  - exists rows. split; [|assumption]. unfold projection_frame_transform, select. rewrite (positions_list f _ ps N F). cbn [bind]. rewrite concat_singles, E. cbn [bind fst snd].
    unfold check_frame. destruct rows as [|r rows]; [inversion S; congruence|]. destruct (Z.eqb_spec (zlen ps) 0) as [Z|_]; [|reflexivity].
    exfalso. rewrite <- (Forall2_zlen _ _ _ F) in Z. destruct (column_list cols); [easy|]. rewrite zlen_cons in Z. pose proof (zlen_nonneg l). lia.
Qed.
(** transform selects the columns by their labels, and succeeds iff the selected entries are finite
    numbers. *)
Theorem projection_frame_spec f cols out : well_formed f -> NoDup (labels f) -> cells f <> [] -> column_list cols <> [] ->
  projection_frame_transform cols f = Ok out <->
  Forall2 (fun row o => Forall2 (fun c v => exists p, carries f c p /\ Znth row p = Some (Number (XFin v))) (column_list cols) o) (cells f) out.
Proof.
  intros W N NE NC. assert (D : (forall c, In c (column_list cols) -> exists p, carries f c p) \/ exists c, In c (column_list cols) /\ forall p, ~ carries f c p).
  { induction (column_list cols) as [|c l IH]; [left; easy|]. destruct (carries_dec f c) as [[p Hp]|H]; [|right; exists c; split; [now left|assumption]]. destruct l as [|c' l].
    - left. intros c' [<-|[]]. eauto.
    - destruct IH as [IH|[c0 [I H]]]; [discriminate| |right; exists c0; split; [now right|assumption]]. left. intros c0 [<-|I]; eauto. }
  destruct D as [D|[c [Ic Hc]]].
  - destruct (carries_list f _ D) as [ps F]. destruct (frame_transform_eq f cols ps W N NE NC F) as [rows [E S]]. rewrite E, mapM_iff.
    eapply Forall2_comp; [exact S|]. cbn. intros row r o Hr H. rewrite mapM_iff.
    assert (HH : Forall2 (fun c (x : cell) => forall p, carries f c p -> Znth row p = Some x) (column_list cols) r).
    { clear - F H N. revert r H. induction F as [|c p cols0 ps0 C F IH]; intros r H; inversion H; subst; constructor; [|now apply IH]. intros p' C'. replace p' with p; [assumption|]. eapply GraphProofs.NoDup_Znth; eassumption. }
    eapply Forall2_comp; [exact HH|]. cbn. intros c x v Ic Hx. rewrite cell_value_ok. destruct (D c Ic) as [p Hp]. specialize (Hx p Hp). split.
    + intros ->. eauto.
    + intros [p' [Hp' Hv]]. replace p' with p in Hv by (eapply GraphProofs.NoDup_Znth; eassumption). congruence.
  - assert (E : projection_frame_transform cols f = Err KeyError).
    { unfold projection_frame_transform, select. assert (E : mapM (positions f) (column_list cols) = Err KeyError); [|now rewrite E]. clear NC.
      induction (column_list cols) as [|a l IH]; [easy|]. cbn [mapM]. destruct Ic as [->|Ic]; [now rewrite positions_missing|]. rewrite (IH Ic). unfold positions. destruct (filter _ _); reflexivity. }
    rewrite E. split; [discriminate|]. intros F. exfalso. destruct (cells f) as [|row rs]; [easy|]. inversion F as [|? o ? ? Fo]; subst. apply In_Znth in Ic. destruct Ic as [k [_ Hk]].
    destruct (Znth_ex o k) as [v Hv]; [rewrite <- (Forall2_zlen _ _ _ Fo); eapply Znth_Some_lt; eassumption|]. destruct (Forall2_Znth _ _ _ _ _ _ Fo Hk Hv) as [p [Hp _]]. now apply (Hc p).
Qed.
(** A missing label raises KeyError, any other failure is a ValueError. *)
Theorem projection_frame_exceptions f cols e : well_formed f -> NoDup (labels f) -> cells f <> [] -> column_list cols <> [] ->
  projection_frame_transform cols f = Err e ->
  ((exists c, In c (column_list cols) /\ forall p, ~ carries f c p) -> e = KeyError) /\
  ((forall c, In c (column_list cols) -> exists p, carries f c p) -> e = ValueError).
Proof.
  intros W N NE NC E. split.
  - intros [c [Ic Hc]]. unfold projection_frame_transform, select in E. assert (EK : mapM (positions f) (column_list cols) = Err KeyError); [|rewrite EK in E; cbn in E; congruence]. clear NC E.
    induction (column_list cols) as [|a l IH]; [easy|]. cbn [mapM]. destruct Ic as [->|Ic]; [now rewrite positions_missing|]. rewrite (IH Ic). unfold positions. destruct (filter _ _); reflexivity.
  - intros D. destruct (carries_list f _ D) as [ps F]. destruct (frame_transform_eq f cols ps W N NE NC F) as [rows [E' S]]. rewrite E' in E.
    assert (V : forall c, (exists y, cell_value c = Ok y) \/ cell_value c = Err ValueError) by (intros [[]|]; cbn; eauto).
    destruct (mapM_ve (mapM cell_value) rows) as [[y Ey]|Ey]; [intros; apply mapM_ve; intros; apply V|congruence|congruence].
Qed.
(** fit accepts a frame iff all its entries, in whatever column, are finite numbers. *)
Theorem projection_frame_fit_spec f : well_formed f -> cells f <> [] -> labels f <> [] ->
  projection_frame_fit f = Ok tt <-> forall row c, In row (cells f) -> In c row -> exists v, c = Number (XFin v).
Proof.
  intros W NE NL. unfold projection_frame_fit, check_frame. destruct (cells f) as [|r0 rs] eqn:EC; [easy|]. rewrite <- EC in *. destruct (Z.eqb_spec (zlen (labels f)) 0) as [Z|_].
  { exfalso. destruct (labels f); [easy|]. rewrite zlen_cons in Z. pose proof (zlen_nonneg l). lia. }
  split.
  - destruct (mapM (mapM cell_value) (cells f)) as [T|] eqn:E; [|discriminate]. intros _ row c Hr Hc. apply mapM_iff in E. apply In_Znth in Hr. destruct Hr as [i [_ Hi]].
    destruct (Znth_ex T i) as [o Ho]; [rewrite <- (Forall2_zlen _ _ _ E); eapply Znth_Some_lt; eassumption|]. pose proof (Forall2_Znth _ _ _ _ _ _ E Hi Ho) as G. cbn in G. apply mapM_iff in G.
    apply In_Znth in Hc. destruct Hc as [j [_ Hj]]. destruct (Znth_ex o j) as [v Hv]; [rewrite <- (Forall2_zlen _ _ _ G); eapply Znth_Some_lt; eassumption|].
    pose proof (Forall2_Znth _ _ _ _ _ _ G Hj Hv) as K. cbn in K. apply cell_value_ok in K. eauto.
  - intros H. destruct (mapM_ex (mapM cell_value) (cells f)) as [T ->]; [|reflexivity]. intros row Hr. apply mapM_ex. intros c Hc. destruct (H row c Hr Hc) as [v ->]. cbn. eauto.
Qed.
(** A defect: transform does not look at the other columns, but fit, and so fit_transform, does. *)
Theorem projection_frame_other_columns_refuted : exists f cols out, well_formed f /\ NoDup (labels f) /\
  projection_frame_transform cols f = Ok out /\ projection_frame cols f = Err ValueError.
Proof.
  exists (Frame [0; 1] [[Number (XFin 5); Text]]), (OneCol 0), [[5%R]]. split; [intros row [<-|[]]; reflexivity|].
  split; [repeat constructor; cbn; intuition discriminate|]. split; reflexivity.
Qed.
(** A defect: columns, documented as indices, are labels for a frame. *)
Theorem projection_frame_index_refuted : exists f T out, well_formed f /\ NoDup (labels f) /\
  cells f = map (map (fun v => Number (XFin v))) T /\ projection_frame (OneCol 0) f = Ok out /\
  projection (OneCol 0) (map (map XFin) T) <> Ok out.
Proof.
  exists (Frame [1; 0] [[Number (XFin 5); Number (XFin 6)]]), [[5%R; 6%R]], [[6%R]]. split; [intros row [<-|[]]; reflexivity|].
  split; [repeat constructor; cbn; intuition discriminate|]. split; [reflexivity|]. split; [reflexivity|]. cbn. intros H. injection H as H. lra.
Qed.
