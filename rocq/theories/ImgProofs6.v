(** Lemmas for the density filtration. *)
From Coq Require Import Reals Lra.
From Verif Require Import Np NpFacts Nd NdFacts Fl RNp RNormFacts FeatModel ImgModel ImgModel2 ImgSpec ImgSpec2 ImgProofs ImgProofs2 ImgProofs3 ImgProofs4.
Open Scope Z_scope.

Lemma rceil_ge r : (r <= IZR (rceil r))%R.
Proof. unfold rceil. rewrite minus_IZR. pose proof (archimed (- r)). lra. Qed.
Lemma rceil_lt r : (IZR (rceil r) < r + 1)%R.
Proof. unfold rceil. rewrite minus_IZR. pose proof (archimed (- r)). lra. Qed.
Lemma rceil_pos r : (0 < r)%R -> 1 <= rceil r.
Proof. intros H. pose proof (rceil_ge r). assert (0 < IZR (rceil r))%R by lra. apply lt_IZR in H1. lia. Qed.
Lemma In_py_range a b i : In i (py_range a b) <-> a <= i < b.
Proof. unfold py_range. rewrite in_map_iff. split; [intros [k [<- H]]; apply In_arange in H; lia|]. intros H. exists (i - a). split; [lia|]. apply In_arange. lia. Qed.
Lemma NoDup_py_range a b : NoDup (py_range a b).
Proof. unfold py_range. apply FinFun.Injective_map_NoDup; [intros i j; lia|apply NoDup_arange]. Qed.

(** Accumulated sums. *)
Definition vat (x : nd Z) idx : Z := match nget x idx with Some v => v | None => 0 end.
Lemma zsum_app l r : fold_right Z.add 0 (l ++ r) = fold_right Z.add 0 l + fold_right Z.add 0 r.
Proof. induction l; cbn [app fold_right]; lia. Qed.
Lemma fold_nzip {E} (g : E -> nd Z) s idx : inside s idx = true -> forall it x0,
  wf x0 -> nshape x0 = s -> (forall e, In e it -> wf (g e) /\ nshape (g e) = s) ->
  let r := fold_left (fun xd e => nzip Z.add xd (g e)) it x0 in
  wf r /\ nshape r = s /\ nget r idx = Some (vat x0 idx + fold_right Z.add 0 (map (fun e => vat (g e) idx) it)).
Proof.
  intros I. induction it as [|e it IH]; intros x0 W S G; cbn [fold_left map fold_right].
  - split; [assumption|]. split; [assumption|]. unfold vat. rewrite <- S in I. destruct (at_Some x0 idx W I) as [v ->]. f_equal. lia.
  - destruct (G e (or_introl eq_refl)) as [W1 S1]. destruct (IH (nzip Z.add x0 (g e))) as [A [B C]].
    + apply wf_nzip; [assumption|assumption|congruence].
    + exact S.
    + intros e' He. apply G. now right.
    + split; [assumption|]. split; [assumption|]. rewrite C. f_equal. unfold vat at 1. destruct (at_Some x0 idx W ltac:(now rewrite S)) as [u Hu]. destruct (at_Some (g e) idx W1 ltac:(now rewrite S1)) as [v Hv].
      rewrite (at_nzip Z.add x0 (g e) idx u v) by (try assumption; congruence). unfold vat at 2 3. rewrite Hu, Hv. lia.
Qed.
Lemma fold_left_ext {A B} (f g : A -> B -> A) l : (forall a b, f a b = g a b) -> forall a, fold_left f l a = fold_left g l a.
Proof. intros H. induction l; intros a0; [reflexivity|]. cbn [fold_left]. now rewrite H. Qed.

Lemma in3 a b c n m l : inside [n; m; l] [a; b; c] = true <-> 0 <= a < n /\ 0 <= b < m /\ 0 <= c < l.
Proof. rewrite !inside_cons. cbn [inside]. tauto. Qed.
Section Fixed.
  Context (metric : list R -> list R -> R) (radius : R) (S ndim h w d : Z) (y : nd Z).
  Hypothesis (HS : 1 <= S) (WY : wf y) (SY : nshape y = [h; w; d]) (HN : ndim = 3 \/ (ndim = 2 /\ d = 1)).
  Let t := if ndim =? 3 then S else 0.
  Let f := DensityFit S (density_mask metric radius S) (density_iterator S ndim) ndim.
  Let pad := map (fun a => if a <? ndim then S else 0) [0; 1; 2].
  Let padded := np_pad pad 0 y.
  Let out := crop S ndim (calculate_density1 f padded).
  Lemma d_pad : pad = [S; S; t].
  Proof. unfold pad, t. destruct HN as [->|[-> _]]; reflexivity. Qed.
  Lemma d_nonneg : 0 <= h /\ 0 <= w /\ 0 <= d.
  Proof. destruct WY as [P _]. rewrite SY in P. repeat split; apply P; cbn; auto. Qed.
  Lemma d_padded_shape : nshape padded = [h + 2 * S; w + 2 * S; d + 2 * t].
  Proof. unfold padded, np_pad. rewrite d_pad, SY. reflexivity. Qed.
  Lemma t_bounds : 0 <= t <= S.
  Proof. unfold t. destruct (ndim =? 3); lia. Qed.
  Lemma d_padded_wf : wf padded.
  Proof. apply wf_mk. fold (nshape padded). change (map2 _ (nshape y) pad) with (nshape padded). rewrite d_padded_shape. pose proof d_nonneg. pose proof t_bounds. intros n [<-|[<-|[<-|[]]]]; lia. Qed.
  Lemma d_padded_at a b c : 0 <= a < h + 2 * S -> 0 <= b < w + 2 * S -> 0 <= c < d + 2 * t ->
    nget padded [a; b; c] = Some (vat y [a - S; b - S; c - t]).
  Proof.
    intros Ha Hb Hc. pose proof d_padded_shape as E. unfold padded, np_pad in *. cbn [mk nshape] in E. rewrite at_mk, E.
    assert (I : inside [h + 2 * S; w + 2 * S; d + 2 * t] [a; b; c] = true) by now apply in3. rewrite I, d_pad. reflexivity.
  Qed.
  Lemma d_iterator i j k : In (i, j, k) (density_iterator S ndim) <-> Z.abs i <= S /\ Z.abs j <= S /\ Z.abs k <= t.
  Proof.
    unfold density_iterator. assert (A0 : (0 <? ndim) = true) by (apply Z.ltb_lt; lia). assert (A1 : (1 <? ndim) = true) by (apply Z.ltb_lt; lia). rewrite A0, A1.
    assert (A2 : forall k, In k (if 2 <? ndim then py_range (- S) (S + 1) else [0]) <-> Z.abs k <= t).
    { intros k'. unfold t. destruct HN as [->|[-> _]]. { change (2 <? 3) with true. change (3 =? 3) with true. cbv iota. rewrite In_py_range. lia. } change (2 <? 2) with false. change (2 =? 3) with false. cbv iota. cbn [In]. lia. }
    rewrite in_flat_map. split.
    - intros [i' [Hi H]]. apply in_flat_map in H. destruct H as [j' [Hj H]]. apply in_map_iff in H. destruct H as [k' [E Hk]]. injection E as -> -> ->. apply In_py_range in Hi, Hj. apply A2 in Hk. lia.
    - intros [Hi [Hj Hk]]. exists i. split; [apply In_py_range; lia|]. apply in_flat_map. exists j. split; [apply In_py_range; lia|]. apply in_map. now apply A2.
  Qed.
  Lemma d_iterator_NoDup : NoDup (density_iterator S ndim).
  Proof.
    unfold density_iterator. assert (A0 : (0 <? ndim) = true) by (apply Z.ltb_lt; lia). assert (A1 : (1 <? ndim) = true) by (apply Z.ltb_lt; lia). rewrite A0, A1.
    assert (A2 : NoDup (if 2 <? ndim then py_range (- S) (S + 1) else [0])) by (destruct (2 <? ndim); [apply NoDup_py_range|constructor; [easy|constructor]]).
    apply NoDup_flat_map; [apply NoDup_py_range| |].
    - intros i _. apply NoDup_flat_map; [apply NoDup_py_range| |].
      + intros j _. apply FinFun.Injective_map_NoDup; [|assumption]. intros k k' E. congruence.
      + intros j j' [[i1 j1] k1] _ _ H H'. apply in_map_iff in H. apply in_map_iff in H'. destruct H as [? [E _]], H' as [? [E' _]]. congruence.
    - intros i i' [[i1 j1] k1] _ _ H H'. apply in_flat_map in H. apply in_flat_map in H'. destruct H as [? [_ H]], H' as [? [_ H']]. apply in_map_iff in H. apply in_map_iff in H'. destruct H as [? [E _]], H' as [? [E' _]]. congruence.
  Qed.
  Definition inball (i j k : Z) : bool :=
    if Rle_dec (metric [IZR S; IZR S; IZR S] [IZR (S + j); IZR (S + i); IZR (S + k)]) radius then true else false.
  Lemma d_mask i j k : Z.abs i <= S -> Z.abs j <= S -> Z.abs k <= S -> nget (density_mask metric radius S) [S + i; S + j; S + k] = Some (inball i j k).
  Proof.
    intros Hi Hj Hk. unfold density_mask. rewrite at_nmap. unfold meshgrid. cbn [map swap01]. rewrite !zlen_arange by lia. rewrite at_mk.
    assert (I : inside [2 * S + 1; 2 * S + 1; 2 * S + 1] [S + i; S + j; S + k] = true) by (apply in3; lia). rewrite I. cbn [swap01 map2]. rewrite !Znth_arange by lia. reflexivity.
  Qed.
  Definition term (a b c : Z) (e : Z * Z * Z) : Z :=
    match e with (i, j, k) => vat y [a - i; b - j; c - k] * (if inball i j k then 1 else 0) end.
  Lemma d_out : wf out /\ nshape out = [h; w; d] /\
    forall a b c, inside [h; w; d] [a; b; c] = true ->
      nget out [a; b; c] = Some (fold_right Z.add 0 (map (term a b c) (density_iterator S ndim))).
  Proof.
    pose proof d_nonneg as NN. pose proof t_bounds as T.
    set (g := fun e : Z * Z * Z => match e with (i, j, k) => nmap (fun v => v * match nget (density_mask metric radius S) [S + i; S + j; S + k] with Some true => 1 | _ => 0 end) (roll3 i j k padded) end).
    assert (EC : calculate_density1 f padded = fold_left (fun xd e => nzip Z.add xd (g e)) (density_iterator S ndim) (mk (nshape padded) (fun _ => 0))).
    { unfold calculate_density1. apply fold_left_ext. intros xd [[i j] k]. reflexivity. }
    assert (W0 : wf (mk (nshape padded) (fun _ => 0))) by (apply wf_mk; apply d_padded_wf).
    assert (WG : forall e, In e (density_iterator S ndim) -> wf (g e) /\ nshape (g e) = nshape padded).
    { intros [[i j] k] _. split; [|reflexivity]. unfold g. apply wf_nmap, wf_mk, d_padded_wf. }
    assert (SC : nshape (calculate_density1 f padded) = [h + 2 * S; w + 2 * S; d + 2 * t]).
    { rewrite EC, <- d_padded_shape. clear. set (x0 := mk _ _). change (nshape padded) with (nshape x0). clearbody x0 g. revert x0. induction (density_iterator S ndim); intros; [reflexivity|]. cbn [fold_left]. rewrite IHl. reflexivity. }
    assert (CL : forall n, 0 <= n -> crop_len S (n + 2 * S) = n). { intros n Hn. unfold crop_len. destruct (Z.eqb_spec S 0); lia. }
    assert (S3 : (if ndim =? 3 then crop_len S (d + 2 * t) else d + 2 * t) = d). { unfold t. destruct (ndim =? 3); [apply CL; lia|lia]. }
    assert (EO : out = mk [h; w; d] (fun idx => match idx with
        | [a; b; c] => match nget (calculate_density1 f padded) [a + S; b + S; if ndim =? 3 then c + S else c] with Some v => v | None => 0 end
        | _ => 0 end)).
    { unfold out, crop. rewrite SC, S3, !CL by lia. reflexivity. }
    split; [rewrite EO; apply wf_mk; intros n [<-|[<-|[<-|[]]]]; lia|]. split; [now rewrite EO|].
    intros a b c I. rewrite EO, at_mk, I. pose proof I as I3. apply in3 in I3.
    assert (Ec : (if ndim =? 3 then c + S else c) = c + t) by (unfold t; destruct (ndim =? 3); lia). rewrite Ec.
    assert (IP : inside (nshape padded) [a + S; b + S; c + t] = true) by (rewrite d_padded_shape; apply in3; lia).
    destruct (fold_nzip g (nshape padded) [a + S; b + S; c + t] IP (density_iterator S ndim) (mk (nshape padded) (fun _ => 0)) W0 eq_refl WG) as [_ [_ C]].
    rewrite EC, C. f_equal. unfold vat at 1. rewrite at_mk, IP, Z.add_0_l. f_equal. apply map_ext_in. intros [[i j] k] He. apply d_iterator in He. destruct He as [Hi [Hj Hk]].
    unfold g, vat at 1. rewrite at_nmap. unfold roll3 at 1. rewrite at_mk, IP. rewrite d_padded_shape. cbn [option_map].
    rewrite !Z.mod_small by lia. rewrite d_padded_at by lia. rewrite d_mask by lia. unfold term.
    replace (a + S - i - S) with (a - i) by lia. replace (b + S - j - S) with (b - j) by lia. replace (c + t - k - t) with (c - k) by lia. destruct (inball i j k); lia.
  Qed.
  Hypothesis PM : proper_metric metric radius.
  Hypothesis ES : S = rceil (metric [0%R] [radius]).
  Lemma inball_metric a b c i j k : inball i j k = true <-> (metric (point3 [(a - i)%Z; (b - j)%Z; (c - k)%Z]) (point3 [a; b; c]) <= radius)%R.
  Proof.
    destruct PM as [_ [TR _]]. unfold inball, point3.
    assert (E : metric [IZR (b - j); IZR (a - i); IZR (c - k)] [IZR b; IZR a; IZR c] = metric [IZR S; IZR S; IZR S] [IZR (S + j); IZR (S + i); IZR (S + k)]).
    { symmetry. rewrite <- (TR _ _ _ _ _ _ (IZR (b - j - S)) (IZR (a - i - S)) (IZR (c - k - S))). rewrite <- !plus_IZR.
      replace (b - j - S + S) with (b - j) by lia. replace (a - i - S + S) with (a - i) by lia. replace (c - k - S + S) with (c - k) by lia.
      replace (b - j - S + (S + j)) with b by lia. replace (a - i - S + (S + i)) with a by lia. replace (c - k - S + (S + k)) with c by lia. reflexivity. }
    rewrite E. destruct (Rle_dec _ _); split; intros; try assumption; try reflexivity; try discriminate; contradiction.
  Qed.
  Lemma d_density a b c : inside [h; w; d] [a; b; c] = true -> exists v, nget out [a; b; c] = Some v /\ is_density metric radius y [a; b; c] v.
  Proof.
    intros I. destruct d_out as [_ [_ HO]]. eexists. split; [apply (HO a b c I)|]. pose proof I as I3. apply in3 in I3. pose proof t_bounds as T.
    set (pix := fun e : Z * Z * Z => match e with (i, j, k) => [a - i; b - j; c - k] end).
    set (ok := fun e : Z * Z * Z => inside [h; w; d] (pix e) && match e with (i, j, k) => inball i j k end).
    set (L := filter ok (density_iterator S ndim)).
    exists (map pix L), (map (fun e => vat y (pix e)) L). split; [|split; [|split]].
    - apply FinFun.Injective_map_NoDup; [|apply NoDup_filter, d_iterator_NoDup]. intros [[i j] k] [[i' j'] k'] E. unfold pix in E. assert (a - i = a - i') by congruence. assert (b - j = b - j') by congruence. assert (c - k = c - k') by congruence. repeat f_equal; lia.
    - intros q. rewrite SY, in_map_iff. split.
      + intros [[[i j] k] [<- He]]. apply filter_In in He. destruct He as [_ He]. unfold ok in He. apply andb_true_iff in He. destruct He as [H1 H2]. split; [assumption|]. now apply inball_metric.
      + intros [H1 H2]. pose proof (inside_length _ _ H1) as LI. destruct q as [|qa [|qb [|qc [|? ?]]]]; try discriminate LI. pose proof H1 as Q. apply in3 in Q. destruct PM as [_ [_ BB]]. pose proof (BB _ _ _ _ _ _ H2) as B. rewrite <- !minus_IZR, <- !abs_IZR in B.
        pose proof (rceil_ge (metric [0%R] [radius])) as CE. rewrite <- ES in CE. destruct B as [B1 [B2 B3]].
        assert (C1 : Z.abs (qb - b) <= S) by (apply le_IZR; lra). assert (C2 : Z.abs (qa - a) <= S) by (apply le_IZR; lra). assert (C3 : Z.abs (qc - c) <= S) by (apply le_IZR; lra).
        exists (a - qa, b - qb, c - qc). assert (EP : pix (a - qa, b - qb, c - qc) = [qa; qb; qc]) by (unfold pix; repeat f_equal; lia). split; [assumption|]. apply filter_In. split.
        * apply d_iterator. repeat split; try lia. unfold t. destruct HN as [E|[E E']]; rewrite E; [change (3 =? 3) with true; cbv iota; lia|]. change (2 =? 3) with false. cbv iota. lia.
        * unfold ok. rewrite EP, H1. cbn [andb]. apply (inball_metric a b c). unfold pix in EP. rewrite EP. exact H2.
    - assert (HL : forall e, In e L -> inside [h; w; d] (pix e) = true) by (intros e He; apply filter_In in He; destruct He as [_ He]; apply andb_true_iff in He; tauto).
      clearbody L. induction L as [|e L IH]; cbn [map]; constructor; [|apply IH; intros; apply HL; now right]. unfold vat. destruct (at_Some y (pix e) WY) as [v ->]; [rewrite SY; apply HL; now left|reflexivity].
    - unfold L. clear L HO. generalize (density_iterator S ndim). intros l. induction l as [|[[i j] k] l IH]; [reflexivity|]. cbn [map fold_right filter]. rewrite IH. clear IH.
      assert (K : term a b c (i, j, k) = if ok (i, j, k) then vat y (pix (i, j, k)) else 0).
      { unfold term, ok, pix. unfold vat. destruct (inside [h; w; d] [a - i; b - j; c - k]) eqn:EI; cbn [andb]; [destruct (inball i j k); lia|]. unfold nget. rewrite SY, EI. lia. }
      rewrite K. destruct (ok (i, j, k)); cbn [map fold_right]; lia.
  Qed.
End Fixed.

(** A two-dimensional image as a three-dimensional one. *)
Lemma get_flat {A} h w (data : list A) r c : nget (Nd [h; w; 1] data) [r; c; 0] = nget (Nd [h; w] data) [r; c].
Proof.
  unfold nget. cbn [nshape ndata]. assert (E : inside [h; w; 1] [r; c; 0] = inside [h; w] [r; c]) by (cbn [inside]; rewrite !andb_true_r; reflexivity). rewrite E. destruct (inside _ _); [|reflexivity].
  all: f_equal; cbn [ravel nd_size]; lia.
Qed.
Lemma wf_flat {A} h w (data : list A) : wf (Nd [h; w] data) <-> wf (Nd [h; w; 1] data).
Proof.
  split; intros [P L]; (split; [|cbn [nd_size nshape ndata] in *; lia]); intros n Hn; cbn [nshape] in *.
  - destruct Hn as [<-|[<-|[<-|[]]]]; try lia; apply P; cbn; auto.
  - apply P. destruct Hn as [<-|[<-|[]]]; cbn; auto.
Qed.
Lemma density_flat metric radius h w data r c v : is_density metric radius (Nd [h; w; 1] data) [r; c; 0] v -> is_density metric radius (Nd [h; w] data) [r; c] v.
Proof.
  intros [near [values [ND [HI [F ->]]]]]. exists (map (firstn 2) near), values. cbn [nshape] in *.
  assert (Q : forall q, In q near -> exists a b, q = [a; b; 0]).
  { intros q Hq. apply HI in Hq. destruct Hq as [I _]. pose proof (inside_length _ _ I) as LI. destruct q as [|a [|b [|e [|? ?]]]]; try discriminate LI. apply in3 in I. exists a, b. repeat f_equal. lia. }
  split; [|split; [|split; [|reflexivity]]].
  - clear F HI. induction near as [|q near IH]; [constructor|]. inversion ND; subst. cbn [map]. constructor; [|apply IH; [assumption|intros; apply Q; now right]].
    intros H. apply in_map_iff in H. destruct H as [q' [E Hq]]. destruct (Q q (or_introl eq_refl)) as [a [b ->]]. destruct (Q q' (or_intror Hq)) as [a' [b' ->]]. cbn [firstn] in E. injection E as -> ->. contradiction.
  - intros q. rewrite in_map_iff. split.
    + intros [q' [<- Hq]]. destruct (Q q' Hq) as [a [b ->]]. apply HI in Hq. destruct Hq as [I M]. cbn [firstn]. split; [|exact M]. apply in3 in I. rewrite !inside_cons. cbn. tauto.
    + intros [I M]. pose proof (inside_length _ _ I) as LI. destruct q as [|a [|b [|? ?]]]; try discriminate LI. exists [a; b; 0]. split; [reflexivity|]. apply HI. split; [|exact M]. apply in3. rewrite !inside_cons in I. lia.
  - clear HI ND. induction F as [|q u near values Hu F IH]; cbn [map]; constructor; [|apply IH; intros; apply Q; now right]. destruct (Q q (or_introl eq_refl)) as [a [b ->]]. cbn [firstn]. now rewrite <- get_flat.
Qed.

(** The whole filtration. *)
Definition density_of metric radius (S ndim : Z) (y : nd Z) : nd Z :=
  Nd (nshape y) (ndata (crop S ndim (calculate_density1 (DensityFit S (density_mask metric radius S) (density_iterator S ndim) ndim)
     (np_pad (map (fun a => if a <? ndim then S else 0) [0; 1; 2]) 0 (Nd (reshape3 (nshape y)) (ndata y)))))).
Lemma density_of_ok metric radius s y : proper_metric metric radius -> 2 <= zlen s <= 3 -> wf y -> nshape y = s ->
  let S := rceil (metric [0%R] [radius]) in
  pixelwise (is_density metric radius y) y (density_of metric radius S (zlen s) y) /\
  nd_size s = nd_size (nshape (crop S (zlen s) (calculate_density1 (DensityFit S (density_mask metric radius S) (density_iterator S (zlen s)) (zlen s))
     (np_pad (map (fun a => if a <? zlen s then S else 0) [0; 1; 2]) 0 (Nd (reshape3 (nshape y)) (ndata y)))))).
Proof.
  intros PM H W E S. assert (HS : 1 <= S) by (apply rceil_pos, PM). destruct (shape23 s H) as [[h [w ->]]|[h [w [d ->]]]].
  - destruct y as [sy data]. cbn [nshape ndata] in *. subst sy. cbn [reshape3]. pose proof (proj1 (wf_flat h w data) W) as W3. set (y3 := Nd [h; w; 1] data) in *. change (zlen [h; w]) with 2.
    destruct (d_out metric radius S 2 h w 1 y3 HS W3 eq_refl (or_intror (conj eq_refl eq_refl))) as [WO [SO _]]. split.
    + split; [reflexivity|]. cbn [nshape]. intros idx I. pose proof (inside_length _ _ I) as LI. destruct idx as [|r [|c [|? ?]]]; try discriminate LI.
      assert (I3 : inside [h; w; 1] [r; c; 0] = true) by (apply in3; rewrite !inside_cons in I; lia).
      destruct (d_density metric radius S 2 h w 1 y3 HS W3 eq_refl (or_intror (conj eq_refl eq_refl)) PM eq_refl r c 0 I3) as [v [Hv D]]. exists v. split; [|now apply density_flat].
      unfold density_of. cbn [nshape ndata reshape3]. fold y3. rewrite <- get_flat, <- SO. match goal with |- nget (Nd (nshape ?o) (ndata ?o)) _ = _ => replace (Nd (nshape o) (ndata o)) with o by (now destruct o) end. exact Hv.
    + rewrite SO. cbn [nd_size]. lia.
  - change (zlen [h; w; d]) with 3. destruct y as [sy data]. cbn [nshape ndata] in *. subst sy. cbn [reshape3]. set (y3 := Nd [h; w; d] data) in *.
    destruct (d_out metric radius S 3 h w d y3 HS W eq_refl (or_introl eq_refl)) as [WO [SO _]]. split.
    + split; [reflexivity|]. cbn [nshape]. intros idx I. pose proof (inside_length _ _ I) as LI. destruct idx as [|r [|c [|e [|? ?]]]]; try discriminate LI.
      destruct (d_density metric radius S 3 h w d y3 HS W eq_refl (or_introl eq_refl) PM eq_refl r c e I) as [v [Hv D]]. exists v. split; [|assumption].
      unfold density_of. cbn [nshape ndata reshape3 y3]. fold y3. rewrite <- SO. match goal with |- nget (Nd (nshape ?o) (ndata ?o)) _ = _ => replace (Nd (nshape o) (ndata o)) with o by (now destruct o) end. exact Hv.
    + now rewrite SO.
Qed.
Lemma density_ok metric radius s X : images s X -> 2 <= zlen s <= 3 -> proper_metric metric radius -> (0 < radius)%R ->
  forall s' Y n_jobs, images s' Y -> zlen s' = zlen s -> 1 <= n_jobs ->
  density_filtration metric (Some radius) n_jobs X Y = Ok (map (density_of metric radius (rceil (metric [0%R] [radius])) (zlen s)) Y).
Proof.
  intros HX HL PM HR s' Y n_jobs HY LS HJ. unfold density_filtration, fit_density. rewrite (fit_shape_ok s X HX) by lia. cbn [bind radius_ok]. destruct (Rlt_dec 0 radius); [|contradiction]. cbn [negb].
  set (S := rceil _). assert (HS : 1 <= S) by (apply rceil_pos, PM). destruct (Z.ltb_spec S 0); [lia|].
  assert (R3 : zlen (reshape3 s) =? 3 = true). { destruct (shape23 s HL) as [[h [w ->]]|[h [w [d ->]]]]; reflexivity. }
  rewrite R3. cbn [bind df_size df_ndim]. destruct HY as [NY HY].
  unfold pad_batch. rewrite (parallel_map _ (np_pad (map (fun a => if a <? zlen s then S else 0) [0; 1; 2]) 0)); [|lia|now destruct Y|].
  - cbn [bind]. rewrite (parallel_map _ (calculate_density1 (DensityFit S (density_mask metric radius S) (density_iterator S (zlen s)) (zlen s)))); [|assumption|now destruct Y|reflexivity].
    cbn [bind]. rewrite !map_map, combine_map_r, mapM_map. apply mapM_Ok. intros y Hy. cbn [fst snd]. destruct (HY y Hy) as [W E]. unfold reshape.
    destruct (density_of_ok metric radius s' y PM) as [_ SZ]; [lia|assumption|assumption|]. rewrite LS in SZ. rewrite E in *. rewrite SZ. fold S. rewrite Z.eqb_refl. unfold density_of. now rewrite E.
  - intros b Hb HI. assert (F1 : forallb (fun x => zlen (nshape x) =? zlen (map (fun a => if a <? zlen s then S else 0) [0; 1; 2])) b = true).
    { apply forallb_forall. intros x Hx. apply HI in Hx. apply in_map_iff in Hx. destruct Hx as [y [<- Hy]]. destruct (HY y Hy) as [W E]. cbn [nshape]. rewrite E. destruct (shape23 s' ltac:(lia)) as [[h [w ->]]|[h [w [d ->]]]]; reflexivity. }
    assert (F2 : forallb (fun p => 0 <=? p) (map (fun a => if a <? zlen s then S else 0) [0; 1; 2]) = true).
    { apply forallb_forall. intros p Hp. apply in_map_iff in Hp. destruct Hp as [a [<- _]]. apply Z.leb_le. destruct (a <? zlen s); lia. }
    now rewrite F1, F2.
Qed.
(** Minkowski metrics. *)
Lemma norm_one p x : (match p with Pfin p => 1 <= p | Pinf => True end)%R -> norm p [x] = Rabs x.
Proof.
  intros H. destruct p as [p|]; cbn [norm map rsum rmax fold_right].
  - rewrite Rplus_0_r. apply rpow_inv; [apply Rabs_pos|lra].
  - apply Rmax_left, Rabs_pos.
Qed.
Lemma norm_part p v x : (match p with Pfin p => 1 <= p | Pinf => True end)%R -> In x v -> (Rabs x <= norm p v)%R.
Proof.
  intros H Hx. destruct p as [p|]; cbn [norm].
  - rewrite <- (rpow_inv (Rabs x) p) by (try apply Rabs_pos; lra). apply rpow_le; [|unfold Rdiv; rewrite Rmult_1_l; apply Rinv_0_lt_compat; lra]. split; [apply rpow_nonneg, Rabs_pos|].
    clear -Hx. induction v as [|y v IH]; [destruct Hx|]. cbn [map]. rewrite rsum_cons. assert (N : (0 <= rsum (map (fun x => rpow (Rabs x) p) v))%R). { apply rsum_nonneg. apply abs_pow_nonneg. }
    destruct Hx as [->|Hx]; [lra|]. specialize (IH Hx). pose proof (rpow_nonneg (Rabs y) p (Rabs_pos y)). lra.
  - apply rmax_ge. now apply in_map.
Qed.
Lemma mink_proper p radius : (match p with Pfin p => 1 <= p | Pinf => True end)%R -> (0 < radius)%R -> proper_metric (mink p) radius.
Proof.
  intros H HR. assert (E : mink p [0%R] [radius] = radius). { unfold mink, vsub. cbn [combine map fst snd]. rewrite norm_one by assumption. rewrite Rminus_0_l, Rabs_Ropp. apply Rabs_right. lra. }
  unfold proper_metric. rewrite E. split; [assumption|]. split.
  - intros. unfold mink, vsub. cbn [combine map fst snd]. f_equal. repeat (f_equal; try ring).
  - intros a b c a' b' c' HM. unfold mink, vsub in HM. cbn [combine map fst snd] in HM. repeat split; (eapply Rle_trans; [apply (norm_part p [(a - a')%R; (b - b')%R; (c - c')%R] _ H)|exact HM]); cbn [In]; auto.
Qed.
