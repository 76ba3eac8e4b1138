(** C72: colour data, colour features and node colours. *)
From Coq Require Import Ascii String Qround.
From Verif Require Import Np NpFacts Fl FlFacts VecModel ColorTypes ColorModel ColorSpec MplotTypes MplotModel MplotSpec MplotThms.
From Verif Require CurveThms2 PlotThms4 PlotThms5.
Open Scope Z_scope.

Lemma Znth_nil {A} k (x : A) : Znth [] k = Some x -> False.
Proof. intros E. apply Znth_Some_lt in E. cbn in E. lia. Qed.
(** ** Columns *)
Lemma column_get rows j col : 0 <= j -> is_column rows j col -> mapM (fun row => py_get row j) rows = Ok col.
Proof.
  intros Hj H. apply mapM_Forall2. induction H as [|row x rows col E F IH]; constructor; [|assumption]. now apply py_get_in.
Qed.
Lemma column_get_wrap rows c j k col : (forall row, In row rows -> zlen row = c) -> j = k \/ j = k - c -> is_column rows k col ->
  mapM (fun row => py_get row j) rows = Ok col.
Proof.
  intros R Hj H. apply mapM_Forall2. induction H as [|row x rows col E F IH]; constructor.
  - apply (PlotThms4.py_get_wrap _ k _ _ E). rewrite (R row) by now left. assumption.
  - apply IH. intros; apply R; now right.
Qed.
Lemma is_column_unique rows j c c' : is_column rows j c -> is_column rows j c' -> c = c'.
Proof.
  intros H. revert c'. induction H as [|row x rows col E F IH]; intros c' H'; inversion H'; subst; [reflexivity|]. f_equal; [congruence|now apply IH].
Qed.
Lemma gather_cols rows : forall js cols,
  Forall2 (fun j col => mapM (fun row => py_get row j) rows = Ok col) js cols ->
  exists rs, mapM (fun row => gather row js) rows = Ok rs /\ forall j col, Znth cols j = Some col -> is_column rs j col.
Proof.
  induction rows as [|row rows IH]; intros js cols H.
  - exists []. split; [reflexivity|]. intros j col E. destruct (Znth_ex js j) as [i Ei]; [rewrite (Forall2_zlen _ _ _ H); eapply Znth_Some_lt; eassumption|].
    pose proof (Forall2_Znth _ _ _ _ _ _ H Ei E) as X. cbn in X. injection X as <-. constructor.
  - assert (S : exists xs cols', Forall2 (fun j x => py_get row j = Ok x) js xs /\
        Forall2 (fun j col => mapM (fun row => py_get row j) rows = Ok col) js cols' /\
        forall j col, Znth cols j = Some col -> exists x col', Znth xs j = Some x /\ Znth cols' j = Some col' /\ col = x :: col').
    { clear IH. induction H as [|i c js cols E F [xs [cols' [A [B C]]]]]; [exists [], []; split; [constructor|split; [constructor|intros j col E; now apply Znth_nil in E]]|].
      cbn [mapM] in E. destruct (py_get row i) as [x|] eqn:Ex; [|discriminate]. cbn [bind] in E. destruct (mapM _ rows) as [c'|] eqn:Ec; [|discriminate]. cbn [bind] in E. injection E as <-.
      exists (x :: xs), (c' :: cols'). split; [now constructor|]. split; [now constructor|]. intros j col E. pose proof (Znth_Some_lt _ _ _ E). destruct (Z.eq_dec j 0) as [->|N].
      - rewrite Znth_0 in E. injection E as <-. exists x, c'. now rewrite !Znth_0.
      - rewrite Znth_cons in E by lia. destruct (C _ _ E) as [y [d H']]. exists y, d. now rewrite !Znth_cons by lia. }
    destruct S as [xs [cols' [A [B C]]]]. destruct (IH js cols' B) as [rs [E H']]. exists (xs :: rs). cbn [mapM]. unfold gather at 1. rewrite (mapM_Forall2 _ _ _ A). cbn [bind]. rewrite E. split; [reflexivity|].
    intros j col Ej. destruct (C j col Ej) as [x [col' [E1 [E2 ->]]]]. constructor; [assumption|]. now apply H'.
Qed.

(** ** Names *)
Lemma label_eqb_spec a b : reflect (a = b) (label_eqb a b).
Proof.
  destruct a as [x|s], b as [y|t]; cbn; try (constructor; congruence).
  - destruct (Z.eqb_spec x y); constructor; congruence.
  - destruct (String.eqb_spec s t); constructor; congruence.
Qed.
Lemma named_none l names : forall i, (forall k, Znth names k <> Some l) ->
  flat_map (fun iv => if label_eqb l (snd iv) then [fst iv] else []) (mapi_from i (fun i v => (i, v)) names) = [].
Proof.
  induction names as [|x names IH]; intros i H; [reflexivity|]. cbn [mapi_from flat_map fst snd]. destruct (label_eqb_spec l x) as [->|N].
  - exfalso. apply (H 0). apply Znth_0.
  - cbn [app]. apply IH. intros k E. apply (H (k + 1)). rewrite Znth_cons by (pose proof (Znth_Some_lt _ _ _ E); lia). now replace (k + 1 - 1) with k by lia.
Qed.
Lemma named_one l names : forall i k, Znth names k = Some l -> (forall k', Znth names k' = Some l -> k' = k) ->
  flat_map (fun iv => if label_eqb l (snd iv) then [fst iv] else []) (mapi_from i (fun i v => (i, v)) names) = [i + k].
Proof.
  induction names as [|x names IH]; intros i k E U; [now apply Znth_nil in E|]. cbn [mapi_from flat_map fst snd]. pose proof (Znth_Some_lt _ _ _ E) as B. destruct (label_eqb_spec l x) as [->|N].
  - assert (K : 0 = k) by (apply U, Znth_0). subst k. rewrite named_none; [cbn; f_equal; lia|]. intros k E'. assert (X : k + 1 = 0); [|pose proof (Znth_Some_lt _ _ _ E'); lia].
    apply U. rewrite Znth_cons by (pose proof (Znth_Some_lt _ _ _ E'); lia). now replace (k + 1 - 1) with k by lia.
  - cbn [app]. assert (K : k <> 0) by (intros ->; rewrite Znth_0 in E; congruence). rewrite Znth_cons in E by lia. rewrite (IH (i + 1) (k - 1) E); [f_equal; lia|].
    intros k' E'. pose proof (Znth_Some_lt _ _ _ E'). assert (X : k' + 1 = k); [|lia]. apply U. rewrite Znth_cons by lia. now replace (k' + 1 - 1) with k' by lia.
Qed.
Lemma named_unique l names k : Znth names k = Some l -> (forall k', Znth names k' = Some l -> k' = k) -> named names l = [k].
Proof. intros E U. unfold named, mapi. now rewrite (named_one l names 0 k E U). Qed.

(** ** Colour data *)
Lemma color_data_ok n cd d : 0 < n -> color_data_used n cd d -> checked_color_data n cd = Ok d.
Proof.
  intros Hn H. unfold checked_color_data. destruct cd as [d'|].
  - destruct H as [-> [R [E C]]]. destruct d' as [[l|c rows]|names rows|l]; cbn in *; subst n; rewrite ?Z.eqb_refl, ?(proj2 (Z.eqb_neq _ 0)) by lia; reflexivity.
  - destruct H as [l [-> [E H]]]. assert (L : l = map qz (arange n)).
    { apply Znth_ext; [rewrite zlen_map, zlen_arange by lia; assumption|]. intros i Hi. destruct (Znth_ex l i Hi) as [x Ex]. rewrite Ex, Znth_map, Znth_arange by lia. cbn. now rewrite (H i x Ex). }
    rewrite <- L. cbn. rewrite E, (proj2 (Z.eqb_neq _ 0)), Z.eqb_refl by lia. reflexivity.
Qed.
Lemma used_rectangular n cd d : color_data_used n cd d -> rectangular d.
Proof. destruct cd; [intros [_ [R _]]; assumption|intros [l [-> _]]; exact I]. Qed.

(** ** Colour features: the validated array has the asked columns. *)
Definition has_columns (m : mat) (cols : list (label * list Qc)) : Prop :=
  m_cols m = zlen cols /\ forall j nm col, Znth cols j = Some (nm, col) -> is_column (m_rows m) j col.
Definition names_after (a : arr) (old : option (list label)) (nn : option (option (list label))) : option (list label) :=
  let names := match nn with Some nm => nm | None => old end in
  match a, names with A2 c _, None => Some (map LInt (arange c)) | _, _ => names end.
Lemma map_fst_numbers cols c : zlen cols = c -> (forall j (nm : label) (col : list Qc), Znth cols j = Some (nm, col) -> nm = LInt j) -> map fst cols = map LInt (arange c).
Proof.
  intros L H. pose proof (zlen_nonneg cols). apply Znth_ext; [rewrite !zlen_map, zlen_arange by lia; assumption|]. rewrite zlen_map. intros i Hi.
  destruct (Znth_ex cols i Hi) as [[nm col] E]. rewrite !Znth_map, E, Znth_arange by lia. cbn. now rewrite (H _ _ _ E).
Qed.
Lemma columns_ok d cols n : 0 < n -> cols <> [] -> columns d cols -> (forall nm col, In (nm, col) cols -> zlen col = n) ->
  exists m, reshape_cols (to_numpy d) = Ok m /\ has_columns m cols /\
    (1 < zlen cols -> names_after (to_numpy d) None (match d with DFrame names _ => Some (Some names) | _ => None end) = Some (map fst cols)).
Proof.
  intros Hn NE H L. destruct cols as [|[nm0 col0] cols']; [contradiction|]. set (cols := (nm0, col0) :: cols') in *.
  assert (L0 : zlen col0 = n) by (apply (L nm0); now left). assert (E0 : Znth cols 0 = Some (nm0, col0)) by apply Znth_0.
  assert (One : forall l : list Qc, cols = [(LInt 0, l)] -> exists m, reshape_cols (A1 l) = Ok m /\ has_columns m cols /\ zlen cols = 1).
  { intros l E. rewrite E in E0. rewrite Znth_0 in E0. injection E0 as <- <-. unfold reshape_cols. cbn [alen]. rewrite (proj2 (Z.eqb_neq (zlen l) 0)) by lia. eexists. split; [reflexivity|]. rewrite E. split; [split; [reflexivity|]|reflexivity].
    cbn [m_rows]. intros j nm col Ej. pose proof (Znth_Some_lt _ _ _ Ej) as B. cbn in B. assert (j = 0) by lia. subst j. rewrite Znth_0 in Ej. injection Ej as <- <-. unfold is_column.
    clear. induction l; cbn; constructor; [reflexivity|assumption]. }
  destruct d as [[l|c rows]|names rows|l]; cbn [to_numpy columns] in *.
  - destruct (One l H) as [m [A [B C]]]. exists m. split; [assumption|]. split; [assumption|]. lia.
  - destruct H as [Hc H]. destruct (H 0 _ _ E0) as [_ C0]. pose proof (Forall2_zlen _ _ _ C0) as Lr. unfold reshape_cols. cbn [alen]. rewrite (proj2 (Z.eqb_neq (zlen rows) 0)) by lia.
    eexists. split; [reflexivity|]. split; [split; [now rewrite Hc|intros j nm col E; now destruct (H j nm col E)]|]. intros _. cbn. f_equal. symmetry. apply (map_fst_numbers cols c); [assumption|]. intros j nm col E. now destruct (H j nm col E).
  - destruct H as [Hc H]. pose proof (H 0 _ _ E0) as C0. pose proof (Forall2_zlen _ _ _ C0) as Lr. unfold reshape_cols. cbn [alen]. rewrite (proj2 (Z.eqb_neq (zlen rows) 0)) by lia.
    eexists. split; [reflexivity|]. split; [split; [cbn [m_cols]; now rewrite <- Hc, zlen_map|intros j nm col E; now apply (H j nm col)]|]. intros _. unfold names_after. now rewrite Hc.
  - destruct (One l H) as [m [A [B C]]]. exists m. split; [assumption|]. split; [assumption|]. lia.
Qed.
Lemma named_column_get rows names l col : rectangular (DFrame names rows) ->
  column_named (DFrame names rows) l col -> exists k, named names l = [k] /\ Znth names k = Some l /\ mapM (fun row => py_get row k) rows = Ok col.
Proof.
  intros R H. assert (H' : exists k, Znth names k = Some l /\ (forall k', Znth names k' = Some l -> k' = k) /\ is_column rows k col) by (destruct l; exact H).
  destruct H' as [k [E [U C]]]. exists k. split; [now apply named_unique|]. split; [assumption|]. apply column_get; [|assumption]. now apply Znth_Some_lt in E.
Qed.
Lemma features_ok d f cols n : 0 < n -> rectangular d -> cols <> [] -> features d f cols ->
  (forall nm col, In (nm, col) cols -> zlen col = n) ->
  exists a nn m, apply_color_features d f = Ok (a, nn) /\ reshape_cols a = Ok m /\ has_columns m cols /\
    (1 < zlen cols -> names_after a None nn = Some (map fst cols)).
Proof.
  intros Hn R NE H L. destruct H as [cols H|fit tr call a cols E H|tr call a cols E H|call d' cols E H|l col H|ls cols H].
  - destruct (columns_ok d cols n Hn NE H L) as [m [A [B C]]]. cbn [apply_color_features]. eexists _, _, m. split; [reflexivity|]. auto.
  - destruct (columns_ok (DArr a) cols n Hn NE H L) as [m [A [B C]]]. cbn [apply_color_features]. rewrite E. eexists _, _, m. split; [reflexivity|]. auto.
  - destruct (columns_ok (DArr a) cols n Hn NE H L) as [m [A [B C]]]. cbn [apply_color_features]. rewrite E. eexists _, _, m. split; [reflexivity|]. auto.
  - destruct (columns_ok d' cols n Hn NE H L) as [m [A [B C]]]. cbn [apply_color_features]. rewrite E. eexists _, _, m. split; [reflexivity|]. auto.
  - specialize (L l col (or_introl eq_refl)).
    assert (X : exists a nn, apply_color_features d (FCol l) = Ok (a, nn) /\ a = A1 col).
    { destruct d as [[v|c rows]|names rows|v]; try now destruct l.
      - destruct l as [j|s]; [|contradiction]. destruct H as [k [B [J C]]]. cbn [apply_color_features array_get]. unfold mcol; cbn [m_cols m_rows].
        replace ((- c <=? j) && (j <? c)) with true by (symmetry; apply andb_true_iff; split; [apply Z.leb_le|apply Z.ltb_lt]; lia). rewrite (column_get_wrap rows c j k col R J C). cbn. eauto.
      - destruct (named_column_get rows names l col R H) as [k [A [_ B]]]. cbn [apply_color_features frame_get]. rewrite A, B. cbn. eauto. }
    destruct X as [a [nn [E ->]]]. exists (A1 col), nn. unfold reshape_cols; cbn [alen]. rewrite (proj2 (Z.eqb_neq _ 0)) by lia. eexists. split; [exact E|]. split; [reflexivity|]. split; [|cbn; lia]. split; [reflexivity|].
    cbn [m_rows]. intros j nm c Ej. pose proof (Znth_Some_lt _ _ _ Ej) as B. cbn in B. assert (j = 0) by lia. subst j. rewrite Znth_0 in Ej. injection Ej as <- <-. unfold is_column.
    clear. induction col; cbn; constructor; [reflexivity|assumption].
  - assert (Lr : forall nm col, In (nm, col) cols -> zlen col = n) by assumption.
    assert (Ef : map fst cols = ls). { clear - H. induction H as [|l nc ls cols [E _] F IH]; cbn; congruence. }
    destruct d as [[v|c rows]|names rows|v].
    + exfalso. destruct H as [|l nc ls cols [_ X] _]; [now apply NE|]. now destruct l.
    + cbn [apply_color_features array_get].
      assert (S : exists js, Forall2 (fun l j => (match l with LInt j => if (- c <=? j) && (j <? c) then Ok j else Err IndexError | LStr _ => Err IndexError end) = Ok j) ls js /\ Forall2 (fun j col => mapM (fun row => py_get row j) rows = Ok col) js (map snd cols)).
      { clear NE L Lr Ef. induction H as [|l nc ls cols [E X] F [js [A B]]]; [exists []; split; constructor|]. destruct l as [j|s]; [|contradiction]. destruct X as [k [Bk [J C]]]. exists (j :: js). split; constructor; [|assumption| |assumption].
        - now replace ((- c <=? j) && (j <? c)) with true by (symmetry; apply andb_true_iff; split; [apply Z.leb_le|apply Z.ltb_lt]; lia).
        - now apply (column_get_wrap rows c j k). }
      destruct S as [js [A B]]. rewrite (mapM_Forall2 _ _ _ A). cbn [bind]. destruct (gather_cols rows js _ B) as [rs [E G]]. rewrite E. cbn [bind]. eexists _, _. 
      assert (Lrs : zlen rs = n). { destruct cols as [|[nm0 col0] cols]; [contradiction|]. pose proof (G 0 col0 (Znth_0 _ _)) as X. rewrite (Forall2_zlen _ _ _ X). apply (Lr nm0). now left. }
      eexists. split; [reflexivity|]. unfold reshape_cols; cbn [alen]. rewrite (proj2 (Z.eqb_neq (zlen rs) 0)) by lia. split; [reflexivity|]. split; [split|].
      * cbn [m_cols]. rewrite <- (Forall2_zlen _ _ _ A), (Forall2_zlen _ _ _ H). reflexivity.
      * cbn [m_rows]. intros j nm col Ej. apply G. now rewrite Znth_map, Ej.
      * intros _. cbn. now rewrite Ef.
    + cbn [apply_color_features frame_get].
      assert (S : exists js, Forall2 (fun l p => (match named names l with [] => Err KeyError | p => Ok p end) = Ok p) ls (map (fun k => [k]) js) /\ Forall2 (fun j l => py_get names j = Ok l) js ls /\ Forall2 (fun j col => mapM (fun row => py_get row j) rows = Ok col) js (map snd cols)).
      { clear NE L Lr Ef. induction H as [|l nc ls cols [E X] F [js [A [A' B]]]]; [exists []; split; [constructor|split; constructor]|]. destruct (named_column_get rows names l (snd nc) R X) as [k [Ek [En Ec]]]. exists (k :: js). cbn [map]. split; [|split]; constructor; try assumption.
        - now rewrite Ek. - apply py_get_in; [now apply Znth_Some_lt in En|assumption]. }
      destruct S as [js [A [A' B]]]. rewrite (mapM_Forall2 _ _ _ A). cbn [bind]. rewrite CurveThms2.concat_singles. unfold frame_columns, gather at 1. rewrite (mapM_Forall2 _ _ _ A'). cbn [bind].
      destruct (gather_cols rows js _ B) as [rs [E G]]. rewrite E. cbn [bind to_numpy]. eexists _, _.
      assert (Lrs : zlen rs = n). { destruct cols as [|[nm0 col0] cols]; [contradiction|]. pose proof (G 0 col0 (Znth_0 _ _)) as X. rewrite (Forall2_zlen _ _ _ X). apply (Lr nm0). now left. }
      eexists. split; [reflexivity|]. unfold reshape_cols; cbn [alen]. rewrite (proj2 (Z.eqb_neq (zlen rs) 0)) by lia. split; [reflexivity|]. split; [split|].
      * cbn [m_cols]. now rewrite (Forall2_zlen _ _ _ H).
      * cbn [m_rows]. intros j nm col Ej. apply G. now rewrite Znth_map, Ej.
      * intros _. cbn. now rewrite Ef.
    + exfalso. destruct H as [|l nc ls cols [_ X] _]; [now apply NE|]. now destruct l.
Qed.

(** ** Node colours *)
Definition has_node_colors (m : mat) (css : list (list Qc)) (n_nodes : Z) : Prop :=
  m_cols m = zlen css /\ zlen (m_rows m) = n_nodes /\ forall j cs, Znth css j = Some cs -> is_column (m_rows m) j cs.
Lemma mcol_ok m css n j cs : has_node_colors m css n -> Znth css j = Some cs -> mcol m j = Ok cs.
Proof.
  intros [C [_ H]] E. unfold mcol. pose proof (Znth_Some_lt _ _ _ E) as B. replace ((- m_cols m <=? j) && (j <? m_cols m)) with true by (symmetry; apply andb_true_iff; split; [apply Z.leb_le|apply Z.ltb_lt]; lia).
  apply column_get; [lia|]. now apply H.
Qed.
Lemma node_statistics_ok m cols nodes stat css : has_columns m cols ->
  Forall2 (fun nc cs => node_colors stat nodes (snd nc) cs) cols css ->
  (forall v i, In v nodes -> In i (n_elements v) -> 0 <= i) ->
  exists M, get_node_statistics m (map n_elements nodes) stat = Ok M /\ has_node_colors M css (zlen nodes).
Proof.
  intros [Hc Hm] F P. unfold get_node_statistics. rewrite mapM_map.
  assert (V : forall v j c nm col, In v nodes -> Znth cols j = Some (nm, col) -> node_color stat col v c ->
    (do vals <- mapM (fun r => do row <- py_get (m_rows m) r; py_get row j) (n_elements v); stat vals) = Ok c).
  { intros v j c nm col Iv Ej [vals [Fv Es]]. assert (E : mapM (fun r => do row <- py_get (m_rows m) r; py_get row j) (n_elements v) = Ok vals); [|now rewrite E].
    apply mapM_Forall2. specialize (Hm j nm col Ej). assert (Pv : forall i, In i (n_elements v) -> 0 <= i) by (intros i Hi; now apply (P v)). clear - Fv Hm Pv Ej.
    induction Fv as [|i x is xs E Fv IH]; constructor; [|apply IH; intros; apply Pv; now right].
    destruct (Znth_ex (m_rows m) i) as [row Er]; [rewrite (Forall2_zlen _ _ _ Hm); eapply Znth_Some_lt; eassumption|].
    rewrite (py_get_in _ _ _ (Pv i (or_introl eq_refl)) Er). cbn [bind]. apply py_get_in; [now apply Znth_Some_lt in Ej|]. exact (Forall2_Znth _ _ _ _ _ _ Hm Er E). }
  assert (S : forall ns csk, Forall2 (fun nc cs => node_colors stat ns (snd nc) cs) cols csk -> (forall v, In v ns -> In v nodes) ->
    exists rows, mapM (fun v => mapM (fun i => do vals <- mapM (fun r => do row <- py_get (m_rows m) r; py_get row i) (n_elements v); stat vals) (arange (m_cols m))) ns = Ok rows /\
      zlen rows = zlen ns /\ forall j cs, Znth csk j = Some cs -> is_column rows j cs).
  { clear F. induction ns as [|v ns IH]; intros csk F I.
    - exists []. split; [reflexivity|]. split; [reflexivity|]. intros j cs E. destruct (Znth_ex cols j) as [nc En]; [rewrite (Forall2_zlen _ _ _ F); eapply Znth_Some_lt; eassumption|].
      pose proof (Forall2_Znth _ _ _ _ _ _ F En E) as X. inversion X; subst. constructor.
    - assert (Sp : exists xs csk', Forall2 (fun nc x => node_color stat (snd nc) v x) cols xs /\ Forall2 (fun nc cs => node_colors stat ns (snd nc) cs) cols csk' /\
         forall j cs, Znth csk j = Some cs -> exists x cs', Znth xs j = Some x /\ Znth csk' j = Some cs' /\ cs = x :: cs').
      { clear - F. induction F as [|nc cs cols csk X F [xs [csk' [A [B C]]]]]; [exists [], []; split; [constructor|split; [constructor|intros j col E; now apply Znth_nil in E]]|].
        inversion X as [|? x ? cs' Hx Hcs]; subst. exists (x :: xs), (cs' :: csk'). split; [now constructor|]. split; [now constructor|]. intros j c E. pose proof (Znth_Some_lt _ _ _ E). destruct (Z.eq_dec j 0) as [->|N].
        - rewrite Znth_0 in E. injection E as <-. exists x, cs'. now rewrite !Znth_0.
        - rewrite Znth_cons in E by lia. destruct (C _ _ E) as [y [d H']]. exists y, d. now rewrite !Znth_cons by lia. }
      destruct Sp as [xs [csk' [A [B C]]]]. destruct (IH csk' B) as [rows [E [L H]]]; [intros; apply I; now right|]. cbn [mapM].
      assert (Ex : mapM (fun i => do vals <- mapM (fun r => do row <- py_get (m_rows m) r; py_get row i) (n_elements v); stat vals) (arange (m_cols m)) = Ok xs).
      { apply mapM_Forall2. rewrite Hc. pose proof (zlen_nonneg cols) as Nn. assert (Lx : zlen (arange (zlen cols)) = zlen xs) by (rewrite zlen_arange by lia; apply (Forall2_zlen _ _ _ A)).
        assert (Q : forall j x, Znth xs j = Some x -> (do vals <- mapM (fun r => do row <- py_get (m_rows m) r; py_get row j) (n_elements v); stat vals) = Ok x).
        { intros j x Ejx. destruct (Znth_ex cols j) as [[nm col] Ej]; [rewrite (Forall2_zlen _ _ _ A); eapply Znth_Some_lt; eassumption|]. apply (V v j x nm col); [apply I; now left|assumption|]. exact (Forall2_Znth _ _ _ _ _ _ A Ej Ejx). }
        apply CurveThms2.Forall2_of_Znth; [assumption|]. intros j i x Ei Ejx. rewrite Znth_arange in Ei by (rewrite <- (zlen_arange (zlen cols)) by lia; now apply Znth_Some_lt in Ei). injection Ei as <-. now apply Q. }
      rewrite Ex. cbn [bind]. rewrite E. cbn [bind]. exists (xs :: rows). split; [reflexivity|]. split; [rewrite !zlen_cons; lia|]. intros j cs Ej. destruct (C j cs Ej) as [x [cs' [E1 [E2 ->]]]]. constructor; [assumption|]. now apply H. }
  destruct (S nodes css F (fun _ H => H)) as [rows [E [L H]]]. rewrite E. cbn [bind]. eexists. split; [reflexivity|]. split; [|split; assumption]. cbn. rewrite Hc. exact (Forall2_zlen _ _ _ F).
Qed.
