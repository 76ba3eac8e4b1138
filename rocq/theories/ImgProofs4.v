(** Lemmas for the height and radial filtrations. *)
From Coq Require Import Reals Lra.
From Verif Require Import Np NpFacts Nd NdFacts Fl RNp RNormFacts FeatModel ImgModel ImgModel2 ImgSpec ImgSpec2 ImgProofs2 ImgProofs3.
Open Scope Z_scope.

Lemma shape23 (s : list Z) : 2 <= zlen s <= 3 -> (exists h w, s = [h; w]) \/ (exists h w d, s = [h; w; d]).
Proof.
  intros H. destruct s as [|h [|w [|d [|e s]]]]; rewrite ?zlen_cons in H; try (change (zlen (@nil Z)) with 0 in H; lia).
  - left. eauto.
  - right. eauto.
  - pose proof (zlen_nonneg s). lia.
Qed.
Lemma ordered_23 s : 2 <= zlen s <= 3 -> ordered_axes s = Ok (swap01 s).
Proof. intros H. destruct (shape23 s H) as [[h [w ->]]|[h [w [d ->]]]]; reflexivity. Qed.
Lemma swap01_invol {A} (l : list A) : swap01 (swap01 l) = l.
Proof. now destruct l as [|a [|b l]]. Qed.
Lemma swap01_map {A B} (f : A -> B) l : map f (swap01 l) = swap01 (map f l).
Proof. now destruct l as [|a [|b l]]. Qed.
Lemma rnp_max_spec l : l <> [] -> exists m, rnp_max l = Ok m /\ In m l /\ forall x, In x l -> (x <= m)%R.
Proof.
  destruct l as [|a l]; [easy|]. intros _. cbn [rnp_max]. eexists. split; [reflexivity|].
  assert (G : forall l a, In (fold_left Rmax l a) (a :: l) /\ forall x, In x (a :: l) -> (x <= fold_left Rmax l a)%R).
  { clear. induction l as [|b l IH]; intros a; [split; [now left|]; intros x [<-|[]]; cbn; lra|]. cbn [fold_left]. destruct (IH (Rmax a b)) as [I1 I2]. split.
    - destruct I1 as [E|I1]; [|right; now right]. rewrite <- E. unfold Rmax. destruct (Rle_dec a b); [right; now left|now left].
    - pose proof (I2 (Rmax a b) (or_introl eq_refl)) as M. intros x [<-|[<-|Hx]].
      + pose proof (Rmax_l a b). lra.
      + pose proof (Rmax_r a b). lra.
      + apply I2. now right. }
  apply G.
Qed.
Lemma In_ndata {A} (x : nd A) v : wf x -> In v (ndata x) <-> exists idx, nget x idx = Some v.
Proof. intros W. split; [now apply In_nget|]. intros [idx H]. now apply nget_In in H. Qed.
Lemma wf_ones s : (forall n, In n s -> 0 < n) -> wf (ones s).
Proof. intros H. apply wf_mk. intros n Hn. apply H in Hn. lia. Qed.
Lemma first_inside s : (forall n, In n s -> 0 < n) -> inside s (map (fun _ => 0) s) = true.
Proof. induction s as [|n s IH]; intros H; [reflexivity|]. cbn [map]. apply inside_cons. split; [pose proof (H n (or_introl eq_refl)); lia|]. apply IH. intros; apply H; now right. Qed.
Lemma at_ones s idx : nget (ones s) idx = if inside s idx then Some 1 else None.
Proof. exact (at_mk s (fun _ => 1) idx). Qed.

(** ** Height *)
Lemma sq_rpow x : rpow (Rabs x) 2 = (x * x)%R.
Proof.
  destruct (Req_dec x 0) as [->|N]; [rewrite Rabs_R0, rpow_0; lra|]. pose proof (Rabs_pos_lt x N). rewrite rpow_pos by assumption. replace 2%R with (1 + 1)%R by lra. rewrite Rpower_plus, Rpower_1 by assumption.
  rewrite <- Rabs_mult. apply Rabs_right. pose proof (Rle_0_sqr x). unfold Rsqr in *. lra.
Qed.
Lemma sumsq_norm v : (norm (Pfin 2) v * norm (Pfin 2) v = sumsq v)%R.
Proof.
  rewrite <- (sq_rpow (norm (Pfin 2) v)). rewrite Rabs_right by (apply Rle_ge, norm_nonneg). rewrite norm_pow by lra. induction v as [|a v IH]; [reflexivity|]. cbn [map sumsq]. rewrite rsum_cons, IH, sq_rpow. reflexivity.
Qed.
Lemma sumsq_scal c v : sumsq (map (fun a => (a / c)%R) v) = (sumsq v / (c * c))%R.
Proof. induction v as [|a v IH]; cbn [map sumsq]; [unfold Rdiv; ring|]. rewrite IH. unfold Rdiv. rewrite Rinv_mult. ring. Qed.
Lemma normalised_unit d : (exists a, In a d /\ a <> 0%R) -> exists u, normalised d = Some u /\ unit_of d u.
Proof.
  intros [a [Ha Na]]. unfold normalised. destruct (Req_EM_T _ _) as [E|N].
  - exfalso. apply Na. apply (norm_eq0 (Pfin 2) d); [lra|assumption|assumption].
  - pose proof (norm_nonneg (Pfin 2) d) as P. eexists. split; [reflexivity|]. split.
    + rewrite sumsq_scal, <- sumsq_norm. field. assumption.
    + exists (norm (Pfin 2) d). split; [lra|]. rewrite map_map. rewrite <- (map_id d) at 1. apply map_ext. intros x. field. assumption.
Qed.
Definition coord (x : R) (n c : Z) : Z := if Rle_dec 0 x then c else c - (n - 1).
Definition range_of (x : R) (n : Z) : list Z := if Rle_dec 0 x then arange n else map Z.opp (rev (arange n)).
Lemma zlen_range_of x n : 0 <= n -> zlen (range_of x n) = n.
Proof. intros H. unfold range_of. destruct (Rle_dec 0 x); rewrite ?zlen_map, ?zlen_rev; now apply zlen_arange. Qed.
Lemma Znth_range_of x n c : 0 <= c < n -> Znth (range_of x n) c = Some (coord x n c).
Proof.
  intros H. unfold range_of, coord. destruct (Rle_dec 0 x); [now apply Znth_arange|]. rewrite Znth_map, Znth_rev by (rewrite zlen_arange; lia).
  rewrite zlen_arange by lia. rewrite Znth_arange by lia. cbn [option_map]. f_equal. lia.
Qed.
Fixpoint ranges_of (u : list R) (sizes : list Z) : list (list Z) :=
  match u, sizes with x :: u, n :: sizes => range_of x n :: ranges_of u sizes | _, _ => [] end.
Lemma mesh_ranges_ok u0 u sizes : length u = length sizes -> mesh_ranges (Some (u0 ++ u)) (zlen (u0 ++ u)) (zlen u0) sizes = Ok (ranges_of u sizes).
Proof.
  revert u0 u. induction sizes as [|n sizes IH]; intros u0 [|x u] H; try discriminate; [reflexivity|]. cbn [mesh_ranges ranges_of].
  rewrite zlen_app, zlen_cons. pose proof (zlen_nonneg u). destruct (Z.leb_spec (zlen u0 + (zlen u + 1)) (zlen u0)); [lia|]. rewrite Znth_app2 by lia. rewrite Z.sub_diag, Znth_0.
  specialize (IH (u0 ++ [x]) u ltac:(cbn in H; lia)). rewrite <- app_assoc in IH. cbn [app] in IH. rewrite !zlen_app, !zlen_cons in IH. change (zlen (@nil R)) with 0 in IH. rewrite Z.add_0_l in IH. rewrite IH. cbn [bind]. unfold range_of. now destruct (Rle_dec 0 x).
Qed.
(** The entry of the mesh for a pixel, and its product with the direction. *)
Lemma mesh_shape u s : 2 <= zlen s <= 3 -> length u = length s -> (forall n, In n s -> 0 < n) -> nshape (meshgrid (ranges_of u (swap01 s))) = s.
Proof.
  intros H L P. unfold meshgrid. cbn [mk nshape]. transitivity (swap01 (swap01 s)); [f_equal|apply swap01_invol].
  destruct (shape23 s H) as [[h [w ->]]|[h [w [d ->]]]].
  - destruct u as [|x0 [|x1 [|? ?]]]; try discriminate. cbn [swap01 ranges_of map]. rewrite !zlen_range_of; [reflexivity| |]; (assert (forall n, In n [h; w] -> 0 <= n) as P' by (intros n Hn; apply P in Hn; lia)); apply P'; cbn; auto.
  - destruct u as [|x0 [|x1 [|x2 [|? ?]]]]; try discriminate. cbn [swap01 ranges_of map]. rewrite !zlen_range_of; [reflexivity| | |]; (assert (forall n, In n [h; w; d] -> 0 <= n) as P' by (intros n Hn; apply P in Hn; lia)); apply P'; cbn; auto.
Qed.
Lemma coord_diff x n c : 0 <= c < n -> exists b, 0 <= b < n /\ IZR (coord x n c) = (IZR c - IZR b)%R /\ forall c', 0 <= c' < n -> (IZR b * x <= IZR c' * x)%R.
Proof.
  intros H. unfold coord. destruct (Rle_dec 0 x) as [P|P].
  - exists 0. split; [lia|]. split; [lra|]. intros c' Hc. apply Rmult_le_compat_r; [assumption|]. apply IZR_le. lia.
  - exists (n - 1). split; [lia|]. split; [now rewrite minus_IZR|]. intros c' Hc.
    assert (IZR c' <= IZR (n - 1))%R by (apply IZR_le; lia). assert (x <= 0)%R by lra. rewrite (Rmult_comm _ x), (Rmult_comm (IZR c') x). now apply Rmult_le_compat_neg_l.
Qed.
Lemma mesh_height u s p : 2 <= zlen s <= 3 -> length u = length s -> inside s p = true ->
  exists q, nget (meshgrid (ranges_of u (swap01 s))) p = Some q /\ is_height s u p (rdot q u).
Proof.
  intros H L I. pose proof (inside_nonneg _ _ I) as NN. destruct (shape23 s H) as [[h [w ->]]|[h [w [d ->]]]].
  - destruct u as [|x0 [|x1 [|? ?]]]; try discriminate. pose proof (inside_length _ _ I) as LI. destruct p as [|r [|c [|? ?]]]; try discriminate LI. clear LI.
    pose proof I as I'. apply inside_cons in I'. destruct I' as [Hr I']. apply inside_cons in I'. destruct I' as [Hc _].
    exists [coord x0 w c; coord x1 h r]. split.
    + unfold meshgrid. cbn [swap01 ranges_of map]. rewrite !zlen_range_of by lia. cbn [swap01]. rewrite at_mk, I. cbn [swap01 map2]. now rewrite !Znth_range_of by assumption.
    + destruct (coord_diff x0 w c Hc) as [b0 [B0 [E0 M0]]]. destruct (coord_diff x1 h r Hr) as [b1 [B1 [E1 M1]]]. exists [b1; b0]. split; [|split].
      * apply inside_cons. split; [assumption|]. apply inside_cons. split; [assumption|reflexivity].
      * intros q' I'. pose proof (inside_length _ _ I') as LI. destruct q' as [|r' [|c' [|? ?]]]; try discriminate LI. apply inside_cons in I'. destruct I' as [Hr' I']. apply inside_cons in I'. destruct I' as [Hc' _].
        cbn [coords inner]. pose proof (M0 c' Hc'). pose proof (M1 r' Hr'). lra.
      * unfold rdot. cbn [map2 coords inner]. rewrite !rsum_cons. cbn [rsum fold_right]. rewrite E0, E1. ring.
  - destruct u as [|x0 [|x1 [|x2 [|? ?]]]]; try discriminate. pose proof (inside_length _ _ I) as LI. destruct p as [|r [|c [|e [|? ?]]]]; try discriminate LI. clear LI.
    pose proof I as I'. apply inside_cons in I'. destruct I' as [Hr I']. apply inside_cons in I'. destruct I' as [Hc I']. apply inside_cons in I'. destruct I' as [He _].
    exists [coord x0 w c; coord x1 h r; coord x2 d e]. split.
    + unfold meshgrid. cbn [swap01 ranges_of map]. rewrite !zlen_range_of by lia. cbn [swap01]. rewrite at_mk, I. cbn [swap01 map2]. now rewrite !Znth_range_of by assumption.
    + destruct (coord_diff x0 w c Hc) as [b0 [B0 [E0 M0]]]. destruct (coord_diff x1 h r Hr) as [b1 [B1 [E1 M1]]]. destruct (coord_diff x2 d e He) as [b2 [B2 [E2 M2]]]. exists [b1; b0; b2]. split; [|split].
      * apply inside_cons. split; [assumption|]. apply inside_cons. split; [assumption|]. apply inside_cons. split; [assumption|reflexivity].
      * intros q' I'. pose proof (inside_length _ _ I') as LI. destruct q' as [|r' [|c' [|e' [|? ?]]]]; try discriminate LI. apply inside_cons in I'. destruct I' as [Hr' I']. apply inside_cons in I'. destruct I' as [Hc' I']. apply inside_cons in I'. destruct I' as [He' _].
        cbn [coords inner]. pose proof (M0 c' Hc'). pose proof (M1 r' Hr'). pose proof (M2 e' He'). lra.
      * unfold rdot. cbn [map2 coords inner]. rewrite !rsum_cons. cbn [rsum fold_right]. rewrite E0, E1, E2. ring.
Qed.
Lemma is_height_functional s u p v v' : is_height s u p v -> is_height s u p v' -> v = v'.
Proof. intros [q [I [M ->]]] [q' [I' [M' ->]]]. pose proof (M q' I'). pose proof (M' q I). lra. Qed.
Lemma is_height_nonneg s u p v : inside s p = true -> is_height s u p v -> (0 <= v)%R.
Proof. intros I [q [_ [M ->]]]. pose proof (M p I). lra. Qed.

Definition height_of (mesh : nd (list Z)) (u : list R) (M : R) (x : nd Z) : nd (option R) :=
  mk (nshape x) (fun idx =>
         match nget x idx, nget mesh idx with
         | Some v, Some p => if nonzero v then Some (rdot p u) else Some M
         | _, _ => Some M
         end).
Lemma calculate_height_ok u s M x : 2 <= zlen s <= 3 -> length u = length s -> (forall n, In n s -> 0 < n) -> nshape x = s ->
  calculate_height1 (meshgrid (ranges_of u (swap01 s))) (Some u) (Some M) x = Ok (height_of (meshgrid (ranges_of u (swap01 s))) u M x).
Proof.
  intros H L P E. unfold calculate_height1. assert (F : forallb (fun idx => match nget (meshgrid (ranges_of u (swap01 s))) idx with Some _ => true | None => false end) (argwhere x) = true).
  { apply forallb_forall. intros p Hp. apply filter_In in Hp. destruct Hp as [Hp _]. apply In_indices in Hp. rewrite E in Hp. destruct (mesh_height u s p H L Hp) as [q [-> _]]. reflexivity. }
  now rewrite F.
Qed.
Lemma height_of_spec u s M x p v : 2 <= zlen s <= 3 -> length u = length s -> nshape x = s -> nget x p = Some v ->
  (v <> 0 -> exists h, nget (height_of (meshgrid (ranges_of u (swap01 s))) u M x) p = Some (Some h) /\ is_height s u p h) /\
  (v = 0 -> nget (height_of (meshgrid (ranges_of u (swap01 s))) u M x) p = Some (Some M)).
Proof.
  intros H L E Hv. pose proof (at_inside _ _ _ Hv) as I. unfold height_of. rewrite at_mk, I, Hv. rewrite E in I. destruct (mesh_height u s p H L I) as [q [-> HQ]]. unfold nonzero. split; intros N.
  - destruct (Z.eqb_spec v 0); [contradiction|]. cbn [negb]. eauto.
  - subst v. reflexivity.
Qed.
Lemma fit_height_ok direction s X : images s X -> 2 <= zlen s <= 3 -> (forall n, In n s -> 0 < n) ->
  let d := match direction with None => map (fun _ => 1%R) s | Some d => d end in
  zlen d = zlen s -> (exists a, In a d /\ a <> 0%R) ->
  exists u M, unit_of d u /\ length u = length s /\ fit_height direction X = Ok (meshgrid (ranges_of u (swap01 s)), Some u, Some M) /\
    (exists p h, inside s p = true /\ is_height s u p h /\ M = (h + 1)%R) /\
    (forall p h, inside s p = true -> is_height s u p h -> (h <= M - 1)%R).
Proof.
  intros HX HL HP d LD ND. destruct (normalised_unit d ND) as [u [EU HU]]. assert (LU : length u = length s).
  { unfold normalised in EU. destruct (Req_EM_T _ _); [discriminate|]. injection EU as <-. rewrite map_length. unfold zlen in LD. lia. }
  unfold fit_height. rewrite (fit_shape_ok s X HX) by lia. cbn [bind]. fold d. rewrite EU, ordered_23 by assumption. cbn [bind].
  pose proof (mesh_ranges_ok [] u (swap01 s)) as MR. cbn [app] in MR. change (zlen (@nil R)) with 0 in MR.
  assert (ZU : zlen u = zlen d) by (unfold zlen in *; lia). rewrite <- ZU. rewrite MR by (rewrite LU; destruct s as [|? [|? ?]]; reflexivity). cbn [bind].
  rewrite ZU, LD, Z.eqb_refl. rewrite calculate_height_ok by (try assumption; reflexivity). cbn [bind].
  set (h := height_of _ u 0%R (ones s)).
  assert (W : wf h). { apply wf_mk. intros n Hn. apply HP in Hn. lia. }
  assert (HH : forall p, inside s p = true -> exists v, nget h p = Some (Some v) /\ is_height s u p v).
  { intros p I. destruct (height_of_spec u s 0 (ones s) p 1 HL LU eq_refl) as [A _]; [now rewrite at_ones, I|]. apply A. lia. }
  destruct (rnp_max_spec (map (fun v => match v with Some r => r | None => 0%R end) (ndata h))) as [m [EM [IM GM]]].
  { destruct (HH _ (first_inside s HP)) as [v [Hv _]]. apply nget_In in Hv. destruct (ndata h); [destruct Hv|discriminate]. }
  exists u, (m + 1)%R. split; [assumption|]. split; [assumption|]. split; [now rewrite EM|]. split.
  - apply in_map_iff in IM. destruct IM as [v [E Hv]]. apply (In_ndata h _ W) in Hv. destruct Hv as [p Hv]. pose proof (at_inside _ _ _ Hv) as I. change (nshape h) with s in I.
    destruct (HH p I) as [r [E1 E2]]. rewrite Hv in E1. injection E1 as ->. exists p, r. subst m. auto.
  - intros p r I HR. destruct (HH p I) as [r' [E1 E2]]. rewrite (is_height_functional _ _ _ _ _ HR E2). assert (r' <= m)%R; [|lra]. apply GM. apply in_map_iff. exists (Some r'). split; [reflexivity|]. apply In_ndata; eauto.
Qed.
