(** The distance filtrations and the image preprocessing. *)
From Verif Require Import Np NpFacts Nd NdFacts Fl FlFacts VecModel SliceFacts ImgModel ImgSpec ImgProofs.
Open Scope Z_scope.

Lemma parallel_map {A B} (f : list A -> res (list B)) (g : A -> B) n_jobs X : 1 <= n_jobs -> X <> [] ->
  (forall b, b <> [] -> incl b X -> f b = Ok (map g b)) -> parallel f n_jobs X = Ok (map g X).
Proof.
  intros HJ HX Hf. unfold parallel. destruct X as [|x0 X0] eqn:EX; [easy|]. rewrite <- EX in *. clear EX.
  rewrite (mapM_Ok _ (fun s => map g (take_slice s X))).
  - cbn [bind]. f_equal. transitivity (map g (concat (map (fun s => take_slice s X) (gen_even_slices (zlen X) n_jobs)))).
    + rewrite concat_map, map_map. reflexivity.
    + f_equal. now apply even_slices_concat.
  - intros s Hs. apply Hf; [now apply (even_slices_nonempty X n_jobs)|now apply (take_slice_incl X n_jobs)].
Qed.
Lemma parallel_ok {A B} (g : A -> B) n_jobs X : 1 <= n_jobs -> X <> [] ->
  parallel (fun b => Ok (map g b)) n_jobs X = Ok (map g X).
Proof. intros. now apply parallel_map. Qed.

(** *** dilation of one image *)
Definition dil (min_it K mv : Z) (x : nd Z) : nd Z := fold_left (fun y it => step1 it mv y) (py_range min_it (K + 1)) x.
Lemma dilate_map X min_it n mv m : (forall x, In x X -> wf x) ->
  dilate X min_it n mv m = map (dil min_it (Z.min n m) mv) X.
Proof. intros W. unfold dilate. now rewrite dilate_loop_map. Qed.
Lemma dil_inv x K mv : 0 <= mv -> 0 <= K -> wf x -> binary x -> inv x mv K (dil 1 K mv x).
Proof. intros. apply inv_loop; auto. now apply inv_init. Qed.
Lemma dil_inv0 x K : 0 <= K -> wf x -> binary x -> inv x 0 K (dil 0 K 0 x).
Proof.
  intros HK W B. unfold dil. rewrite py_range_cons by lia. cbn [fold_left]. apply inv_loop; [lia|assumption|]. apply inv_step0. now apply inv_init.
Qed.
Lemma none_not_near x k idx : none x 1 -> ~ near x k idx.
Proof. intros N [j [J _]]. exact (N j J). Qed.
Lemma closest_nonneg x c idx d : closest x c idx d -> 0 <= d.
Proof. intros [[j [_ <-]] _]. apply taxicab_nonneg. Qed.
Lemma inv_dilation x K m y : 0 <= K -> inv x 1 K y -> pixelwise (is_dilation K m x) x (nmap (fun v => if v =? 0 then m else v - 1) y).
Proof.
  intros HK [ES [W H]]. split; [exact ES|]. intros idx I. destruct (H idx I) as [v [Hv [A [B C]]]]. rewrite at_nmap, Hv. cbn [option_map]. eexists. split; [reflexivity|]. split.
  - intros d HC. pose proof (closest_nonneg _ _ _ _ HC) as D0. pose proof (closest_near x idx d HC) as HN. destruct (Z.leb_spec d K) as [L|L].
    + destruct (Z.eq_dec d 0) as [->|D].
      * rewrite A by (apply HN; lia). reflexivity.
      * rewrite (B d) by (auto; lia). destruct (Z.eqb_spec (d + 1) 0); lia.
    + rewrite C; [reflexivity|]. rewrite HN. lia.
  - intros N. rewrite C; [reflexivity|]. now apply none_not_near.
Qed.

Lemma wf_not x : wf x -> wf (logical_not x). Proof. apply wf_nmap. Qed.
Lemma binary_not x : binary (logical_not x).
Proof. intros idx v. unfold logical_not. rewrite at_nmap. destruct (nget x idx) as [u|]; [|discriminate]. cbn [option_map]. intros E. injection E as <-. destruct (u =? 0); auto. Qed.
Lemma not_1 x j : nget (logical_not x) j = Some 1 <-> nget x j = Some 0.
Proof.
  unfold logical_not. rewrite at_nmap. destruct (nget x j) as [u|]; cbn [option_map]; [|split; discriminate]. destruct (Z.eqb_spec u 0) as [->|E]; cbn [b2z]; [tauto|].
  split; intros H; [discriminate|]. assert (u = 0) by congruence. contradiction.
Qed.
Lemma closest_not x idx d : closest (logical_not x) 1 idx d <-> closest x 0 idx d.
Proof.
  unfold closest. split; intros [[j [A B]] C]; (split; [exists j; split; [now apply not_1|assumption]|]); intros i Hi; apply C; now apply not_1.
Qed.
Lemma none_not x : none (logical_not x) 1 <-> none x 0.
Proof. unfold none. split; intros H j Hj; apply (H j); now apply not_1. Qed.
Lemma dilation_not K m x idx v : is_dilation K m (logical_not x) idx v <-> is_erosion K m x idx v.
Proof. unfold is_dilation, is_erosion. rewrite none_not. split; intros [A B]; (split; [|exact B]); intros d Hd; apply A; now apply closest_not. Qed.

(** *** signed distance of one image *)
Definition signed (K m : Z) (x : nd Z) : nd Z :=
  let xd := nmap Z.opp (dil 1 K 0 x) in
  let xe := dil 0 K 0 (logical_not x) in
  let mask := nmap (fun v => v =? 1) x in
  let mask_e := nmap (fun v => v =? 0) xe in
  let mask_d := nmap (fun v => v =? 0) xd in
  let xe := nzip (fun e m => if m : bool then e else 0) xe mask in
  let xe := nzip (fun e m => if m : bool then e - 1 else e) xe mask in
  let xd := nzip (fun d m => if m : bool then 0 else d) xd mask in
  let xd := nzip (fun d b => if b : bool then - m else d) xd mask_d in
  let xe := nzip (fun e b => if b : bool then m else e) xe mask_e in
  nzip Z.add xd xe.
Lemma combine3_map {A B C} (f : A -> B) (g : A -> C) l : combine l (combine (map f l) (map g l)) = map (fun a => (a, (f a, g a))) l.
Proof. induction l; [reflexivity|]. cbn [map combine]. now f_equal. Qed.
Lemma signed_map n m X : (forall x, In x X -> wf x) -> calculate_signed_distance n m X = map (signed (Z.min n m) m) X.
Proof.
  intros W. unfold calculate_signed_distance, erode. rewrite !dilate_map; [|intros x Hx; apply in_map_iff in Hx; destruct Hx as [y [<- Hy]]; apply wf_not; auto|assumption].
  rewrite !map_map, combine3_map, map_map. reflexivity.
Qed.
Lemma closest_self x c idx d : nget x idx = Some c -> closest x c idx d -> d = 0.
Proof. intros H [[j [_ <-]] C]. specialize (C idx H). rewrite taxicab_refl in C. pose proof (taxicab_nonneg idx j). lia. Qed.
Lemma signed_ok K m x : 0 <= K -> wf x -> binary x -> pixelwise (is_signed_distance K m x) x (signed K m x).
Proof.
  intros HK W B. pose proof (dil_inv x K 0 ltac:(lia) HK W B) as ID. pose proof (dil_inv0 (logical_not x) K HK (wf_not x W) (binary_not x)) as IE.
  destruct ID as [SD [_ HD]], IE as [SE [_ HE]]. assert (S : nshape (signed K m x) = nshape x) by (cbn [signed nzip nshape nmap]; exact SD). split; [exact S|].
  intros idx I. destruct (at_Some x idx W I) as [v Hv]. destruct (HD idx I) as [u [Hu [D0 [D1 D2]]]]. destruct (HE idx I) as [e [He [E0 [E1 E2]]]].
  assert (F : nget (signed K m x) idx = Some ((if (- u =? 0) then - m else if v =? 1 then 0 else - u) + (if e =? 0 then m else if v =? 1 then e - 1 else 0))).
  { unfold signed. cbv zeta. set (xd := nmap Z.opp (dil 1 K 0 x)). set (xe := dil 0 K 0 (logical_not x)). set (mask := nmap (fun v => v =? 1) x).
    assert (Hxd : nget xd idx = Some (- u)) by (unfold xd; now rewrite at_nmap, Hu). assert (Hxe : nget xe idx = Some e) by exact He.
    assert (Hm : nget mask idx = Some (v =? 1)) by (unfold mask; now rewrite at_nmap, Hv). assert (Sd : nshape mask = nshape xd) by (symmetry; exact SD).
    assert (Se : nshape mask = nshape xe) by (symmetry; exact SE).
    assert (Se' : nshape xd = nshape xe) by congruence.
    apply at_nzip; [exact (eq_sym Se')| |].
    - eapply at_nzip'; [reflexivity|eapply at_nzip'; [exact Sd|exact Hxd|exact Hm|reflexivity]|rewrite at_nmap, Hxd; reflexivity|reflexivity].
    - eapply at_nzip'; [reflexivity|eapply at_nzip'; [exact Se|eapply at_nzip'; [exact Se|exact Hxe|exact Hm|reflexivity]|exact Hm|reflexivity]|rewrite at_nmap, Hxe; reflexivity|].
      cbn beta. destruct (e =? 0), (v =? 1); reflexivity. }
  eexists. split; [exact F|]. clear F. split.
  - intros Hx. assert (v = 1) as -> by congruence. change (1 =? 1) with true. cbn iota. assert (u = 1) as -> by (apply D0; exists idx; rewrite taxicab_refl; split; [assumption|lia]). change (- (1) =? 0) with false. cbn iota. rewrite Z.add_0_l. split.
    + intros d HC. pose proof HC as HC'. apply closest_not in HC'. pose proof (closest_near _ idx d HC') as HN.
      assert (1 <= d). { pose proof (closest_nonneg _ _ _ _ HC). destruct (Z.eq_dec d 0) as [->|]; [|lia]. destruct HC as [[j [A1 A2]] _]. assert (idx = j); [|congruence].
        apply taxicab_0; [|assumption]. rewrite (inside_length _ _ I), (inside_length _ _ (at_inside _ _ _ A1)). reflexivity. }
      destruct (Z.leb_spec d K) as [L|L].
      * rewrite (E1 d) by (auto; lia). destruct (Z.eqb_spec (d + 0) 0); lia.
      * rewrite E2; [reflexivity|]. rewrite HN. lia.
    + intros N. rewrite E2; [reflexivity|]. apply none_not_near. now apply none_not.
  - intros Hx. assert (v = 0) as -> by congruence. change (0 =? 1) with false. cbn iota. assert (e = 1) as -> by (apply E0; exists idx; rewrite taxicab_refl; split; [now apply not_1|lia]). change (1 =? 0) with false. cbn iota. rewrite Z.add_0_r. split.
    + intros d HC. pose proof (closest_near x idx d HC) as HN.
      assert (1 <= d). { pose proof (closest_nonneg _ _ _ _ HC). destruct (Z.eq_dec d 0) as [->|]; [|lia]. destruct HC as [[j [A1 A2]] _]. assert (idx = j); [|congruence].
        apply taxicab_0; [|assumption]. rewrite (inside_length _ _ I), (inside_length _ _ (at_inside _ _ _ A1)). reflexivity. }
      destruct (Z.leb_spec d K) as [L|L].
      * rewrite (D1 d) by (auto; lia). destruct (Z.eqb_spec (- (d + 0)) 0); lia.
      * rewrite D2; [reflexivity|]. rewrite HN. lia.
    + intros N. rewrite D2; [reflexivity|]. now apply none_not_near.
Qed.

(** *** fit *)
Lemma fit_shape_ok {A} s (X : list (nd A)) : images s X -> 1 <= zlen s <= 3 -> fit_shape X = Ok s.
Proof.
  intros [HX H] HL. destruct X as [|x X]; [easy|]. destruct (H x (or_introl eq_refl)) as [_ E]. unfold fit_shape. rewrite E.
  destruct (Z.ltb_spec (zlen s) 1); [lia|]. destruct (Z.ltb_spec 3 (zlen s)); [lia|]. reflexivity.
Qed.
Lemma total_size_nonneg {A} s (X : list (nd A)) : images s X -> 0 <= total_size s.
Proof.
  intros [HX H]. destruct X as [|x X]; [easy|]. destruct (H x (or_introl eq_refl)) as [[W _] E]. rewrite E in W. clear - W.
  induction s as [|n s IH]; [cbn; lia|]. cbn [total_size fold_right] in *. fold (total_size s). pose proof (W n (or_introl eq_refl)). assert (0 <= total_size s) by (apply IH; intros; apply W; now right). lia.
Qed.
Lemma fit_iterations_ok s n (X : list (nd Z)) : images s X -> 1 <= zlen s <= 3 -> valid_iterations n ->
  exists k, fit_iterations n X = Ok (k, total_size s) /\ Z.min k (total_size s) = step_count n (total_size s).
Proof.
  intros HX HL HV. unfold fit_iterations. rewrite (fit_shape_ok s X HX HL). cbn [bind]. cbv zeta. destruct n as [n|]; cbn [valid_iterations step_count] in *.
  - destruct (Z.ltb_spec n 1); [lia|]. eexists. split; reflexivity.
  - eexists. split; [reflexivity|]. apply Z.min_id.
Qed.
Lemma step_count_nonneg n m : valid_iterations n -> 0 <= m -> 0 <= step_count n m.
Proof. destruct n; cbn; lia. Qed.

(** A step count larger than the diameter. *)
Lemma taxicab_bound s : forall a b, inside s a = true -> inside s b = true -> s <> [] -> taxicab a b < total_size s.
Proof.
  induction s as [|n s IH]; intros [|i a] [|j b] A B N; try discriminate; [easy|]. apply inside_cons in A, B. cbn [taxicab total_size fold_right]. fold (total_size s).
  destruct s as [|m s]; [destruct A as [A1 A2], B as [B1 B2]; destruct a; [|discriminate]; destruct b; [|discriminate]; cbn; lia|]. pose proof (IH a b (proj2 A) (proj2 B) ltac:(discriminate)). lia.
Qed.
