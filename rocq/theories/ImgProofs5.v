(** Lemmas for the radial filtration. *)
From Coq Require Import Reals Lra.
From Verif Require Import Np NpFacts Nd NdFacts Fl RNp RNormFacts FeatModel ImgModel ImgModel2 ImgSpec ImgSpec2 ImgProofs2 ImgProofs3 ImgProofs4.
Open Scope Z_scope.

Lemma zeqb_list_refl s : zeqb_list s s = true.
Proof. induction s; [reflexivity|]. cbn [zeqb_list]. now rewrite Z.eqb_refl. Qed.
Lemma points_shape s : 2 <= zlen s <= 3 -> (forall n, In n s -> 0 < n) -> nshape (meshgrid (map arange (swap01 s))) = s.
Proof.
  intros H P. unfold meshgrid. cbn [mk nshape]. rewrite map_map. assert (E : map (fun x => zlen (arange x)) (swap01 s) = swap01 s).
  { rewrite <- (map_id (swap01 s)) at 2. apply map_ext_in. intros n Hn. apply zlen_arange. assert (In n s) by (destruct s as [|? [|? ?]]; cbn in *; tauto). apply P in H0. lia. }
  rewrite E. apply swap01_invol.
Qed.
Lemma points_at s p : 2 <= zlen s <= 3 -> (forall n, In n s -> 0 < n) -> inside s p = true ->
  nget (meshgrid (map arange (swap01 s))) p = Some (coords p).
Proof.
  intros H P I. pose proof (points_shape s H P) as E. unfold meshgrid in *. cbn [mk nshape] in E. rewrite at_mk, E, I. f_equal. clear E.
  destruct (shape23 s H) as [[h [w ->]]|[h [w [d ->]]]]; pose proof (inside_length _ _ I) as LI.
  - destruct p as [|r [|c [|? ?]]]; try discriminate LI. apply inside_cons in I. destruct I as [Hr I]. apply inside_cons in I. destruct I as [Hc _].
    cbn [swap01 map map2 coords]. now rewrite !Znth_arange by assumption.
  - destruct p as [|r [|c [|e [|? ?]]]]; try discriminate LI. apply inside_cons in I. destruct I as [Hr I]. apply inside_cons in I. destruct I as [Hc I]. apply inside_cons in I. destruct I as [He _].
    cbn [swap01 map map2 coords]. now rewrite !Znth_arange by assumption.
Qed.
Definition dmesh metric (c : list Z) (radius : option R) (s : list Z) : nd xr :=
  nmap (fun p => let d := metric (map IZR c) (map IZR p) in if beyond d radius then XPInf else XFin d) (meshgrid (map arange (swap01 s))).
Definition radial1 (mesh : nd xr) (M : R) (x : nd Z) : nd xr :=
  nmap (fun r => if xeqb r (-1)%R then XFin M else r)
    (nzip (fun r v => if v =? 0 then XFin M else r)
       (nmap (nan_to_num_ (XFin 0) (XFin (-1))) (nmap (nan_to_num_ XPInf XPInf) (nzip xmul mesh x))) x).
Lemma calculate_radial_ok metric c radius s M x : 2 <= zlen s <= 3 -> (forall n, In n s -> 0 < n) -> nshape x = s ->
  calculate_radial1 (dmesh metric c radius s) M x = Ok (radial1 (dmesh metric c radius s) M x).
Proof.
  intros H P E. unfold calculate_radial1. change (nshape (dmesh metric c radius s)) with (nshape (meshgrid (map arange (swap01 s)))). rewrite points_shape by assumption.
  rewrite E, zeqb_list_refl. reflexivity.
Qed.
Lemma xeqb_M M : (if xeqb (XFin M) (-1)%R then XFin M else XFin M) = XFin M.
Proof. now destruct (xeqb _ _). Qed.
Lemma beyond_within d radius : beyond d radius = false <-> within d radius.
Proof. unfold beyond, within. destruct radius as [r|]; [|tauto]. destruct (Rlt_dec r d); split; intros; try discriminate; try lra; reflexivity. Qed.
Lemma radial1_spec (metric : list R -> list R -> R) c radius s M x p v : (forall a b, (0 <= metric a b)%R) ->
  2 <= zlen s <= 3 -> (forall n, In n s -> 0 < n) -> nshape x = s -> nget x p = Some v -> v = 0 \/ v = 1 ->
  let d := metric (map IZR c) (map IZR (coords p)) in
  (v = 1 -> within d radius -> nget (radial1 (dmesh metric c radius s) M x) p = Some (XFin d)) /\
  (v = 0 \/ ~ within d radius -> nget (radial1 (dmesh metric c radius s) M x) p = Some (XFin M)).
Proof.
  intros HM H P E Hv B d. pose proof (at_inside _ _ _ Hv) as I. rewrite E in I.
  assert (EM : nget (dmesh metric c radius s) p = Some (if beyond d radius then XPInf else XFin d)).
  { unfold dmesh. rewrite at_nmap, points_at by assumption. reflexivity. }
  assert (ES : nshape (dmesh metric c radius s) = s) by (apply (points_shape s H P)).
  assert (G : nget (radial1 (dmesh metric c radius s) M x) p = Some
     (let r := if v =? 0 then XFin M else nan_to_num_ (XFin 0) (XFin (-1)) (nan_to_num_ XPInf XPInf (xmul (if beyond d radius then XPInf else XFin d) v)) in
      if xeqb r (-1)%R then XFin M else r)).
  { unfold radial1. rewrite at_nmap. erewrite at_nzip'; [| | |exact Hv|reflexivity]; [reflexivity| |].
    - cbn [nmap nzip nshape]. now rewrite ES.
    - rewrite !at_nmap. erewrite at_nzip; [|now rewrite ES|exact EM|exact Hv]. reflexivity. }
  rewrite G. cbv zeta. destruct B as [->| ->].
  - change (0 =? 0) with true. cbv iota. rewrite xeqb_M. split; [discriminate|reflexivity].
  - change (1 =? 0) with false. cbv iota. split.
    + intros _ HW. apply beyond_within in HW. rewrite HW. cbn [xmul nan_to_num_ xeqb]. destruct (Req_EM_T _ _) as [C|_].
      * pose proof (HM (map IZR c) (map IZR (coords p))). fold d in H0. rewrite Rmult_1_r in C. lra.
      * f_equal. f_equal. ring.
    + intros [C|HW]; [lia|]. destruct (beyond d radius) eqn:EB; [|apply beyond_within in EB; contradiction]. cbn [xmul]. change (1 =? 0) with false. change (0 <? 1) with true. cbv iota. cbn [nan_to_num_ xeqb].
      destruct (Req_EM_T _ _); [reflexivity|lra].
Qed.
Lemma within_dec d radius : within d radius \/ ~ within d radius.
Proof. unfold within. destruct radius; [|now left]. destruct (Rle_dec d r); tauto. Qed.
Lemma fit_radial_ok (metric : list R -> list R -> R) center radius s X : images s X -> 2 <= zlen s <= 3 -> (forall n, In n s -> 0 < n) ->
  (forall a b, (0 <= metric a b)%R) -> (match radius with Some r => (0 < r)%R | None => True end) ->
  let c := match center with None => map (fun _ => 0) s | Some c => c end in
  zlen c = zlen s -> let dist p := metric (map IZR c) (map IZR (coords p)) in
  exists M, fit_radial metric center radius X = Ok (dmesh metric c radius s, M) /\
    (forall p, inside s p = true -> within (dist p) radius -> (dist p <= M - 1)%R) /\
    ((exists p, inside s p = true /\ within (dist p) radius /\ M = (dist p + 1)%R) \/
     ((forall p, inside s p = true -> ~ within (dist p) radius) /\ M = 1%R)).
Proof.
  intros HX HL HP HM HR c LC dist. unfold fit_radial. rewrite (fit_shape_ok s X HX) by lia. cbn [bind].
  assert (RO : radius_ok radius = true). { unfold radius_ok. destruct radius; [|reflexivity]. now destruct (Rlt_dec 0 r). }
  rewrite RO. cbn [negb]. fold c. rewrite ordered_23 by assumption. cbn [bind]. rewrite LC, Z.eqb_refl. fold (dmesh metric c radius s).
  rewrite calculate_radial_ok by (try assumption; reflexivity). cbn [bind]. set (r := radial1 _ 0%R (ones s)).
  assert (ES : nshape r = s) by exact (points_shape s HL HP).
  assert (HV : forall p, inside s p = true -> (within (dist p) radius -> nget r p = Some (XFin (dist p))) /\ (~ within (dist p) radius -> nget r p = Some (XFin 0))).
  { intros p I. destruct (radial1_spec metric c radius s 0 (ones s) p 1 HM HL HP eq_refl) as [A B]; [now rewrite at_ones, I|now right|]. split; intros; [now apply A|apply B; now right]. }
  assert (W : wf r).
  { assert (W0 : wf (dmesh metric c radius s)). { apply wf_nmap, wf_mk. intros n Hn. pose proof (points_shape s HL HP) as E. cbn [meshgrid mk nshape] in E. unfold meshgrid in E. cbn [mk nshape] in E. rewrite E in Hn. apply HP in Hn. lia. }
    assert (S0 : nshape (dmesh metric c radius s) = s) by exact (points_shape s HL HP). pose proof (wf_ones s HP) as W1.
    assert (S1 : nshape (ones s) = nshape (dmesh metric c radius s)) by (rewrite S0; reflexivity).
    apply wf_nmap, wf_nzip; [|assumption|exact S1]. apply wf_nmap, wf_nmap, wf_nzip; assumption. }
  destruct (rnp_max_spec (map (fun v => match v with XFin q => q | _ => 0%R end) (ndata r))) as [m [EM [IM GM]]].
  { pose proof (first_inside s HP) as I. destruct (at_Some r (map (fun _ => 0) s) W) as [v Hv]; [now rewrite ES|]. apply nget_In in Hv. destruct (ndata r); [destruct Hv|discriminate]. }
  exists (m + 1)%R. split; [now rewrite EM|].
  assert (U : forall p q, inside s p = true -> nget r p = Some (XFin q) -> (q <= m)%R). { intros p q I Hq. apply GM. apply in_map_iff. exists (XFin q). split; [reflexivity|]. apply In_ndata; eauto. }
  split.
  - intros p I HW. destruct (HV p I) as [A _]. pose proof (U p _ I (A HW)). lra.
  - apply in_map_iff in IM. destruct IM as [v [E Hv]]. apply (In_ndata r _ W) in Hv. destruct Hv as [p Hv]. pose proof (at_inside _ _ _ Hv) as I. rewrite ES in I. destruct (HV p I) as [A B].
    destruct (within_dec (dist p) radius) as [D|D].
    + rewrite (A D) in Hv. injection Hv as <-. left. exists p. subst m. auto.
    + rewrite (B D) in Hv. injection Hv as <-. subst m. destruct (in_dec (list_eq_dec Z.eq_dec) p (filter (fun q => negb (beyond (dist q) radius)) (indices s))) as [IN|IN] eqn:EI; clear EI.
      * apply filter_In in IN. destruct IN as [_ IN]. apply negb_true_iff, beyond_within in IN. contradiction.
      * destruct (filter (fun q => negb (beyond (dist q) radius)) (indices s)) as [|q l] eqn:EF.
        -- right. split; [|lra]. intros q I' D'. assert (In q []) as []. rewrite <- EF. apply filter_In. split; [now apply In_indices|]. apply negb_true_iff. now apply beyond_within.
        -- left. assert (In q (q :: l)) as Hq by now left. rewrite <- EF in Hq. apply filter_In in Hq. destruct Hq as [Hq D']. apply In_indices in Hq. apply negb_true_iff, beyond_within in D'. exists q. split; [assumption|]. split; [assumption|].
           destruct (HV q Hq) as [A' _]. pose proof (U q _ Hq (A' D')). pose proof (HM (map IZR c) (map IZR (coords q))). fold (dist q) in H0. lra.
Qed.
