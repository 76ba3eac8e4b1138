(** Complex polynomials. *)
From Coq Require Import Reals Lra Permutation.
From Verif Require Import Np NpFacts TSProofs Fl FlFacts DiagTypes DiagModel DiagSpec DiagProofs DiagProofs2
  VecModel VecSpec SliceFacts VecProofs VecProofs2 VecProofs3 VecProofs4 RNp RNormFacts MetricModel MetricSpec MetricProofs MetricProofs2 MetricProofs4 FeatModel FeatSpec FeatProofs.
Open Scope Z_scope.

Ltac cring := intros; apply injective_projections; cbn; ring.
Lemma cmul_comm a b : cmul a b = cmul b a. Proof. cring. Qed.
Lemma cmul_assoc a b c : cmul a (cmul b c) = cmul (cmul a b) c. Proof. cring. Qed.
Lemma cmul_1_l a : cmul (1, 0)%R a = a. Proof. cring. Qed.
Lemma cmul_add_r a b c : cmul a (cadd b c) = cadd (cmul a b) (cmul a c). Proof. cring. Qed.
Lemma cadd_0_l a : cadd (0, 0)%R a = a. Proof. cring. Qed.
Lemma cadd_0_r a : cadd a (0, 0)%R = a. Proof. cring. Qed.
Lemma cmul_0 a b : cmul a b = (0, 0)%R -> a = (0, 0)%R \/ b = (0, 0)%R.
Proof.
  destruct a as [a1 a2], b as [b1 b2]. unfold cmul. cbn [fst snd]. intros E. assert (E1 : (a1 * b1 - a2 * b2 = 0)%R) by congruence. assert (E2 : (a1 * b2 + a2 * b1 = 0)%R) by congruence.
  assert (E3 : ((a1 * a1 + a2 * a2) * (b1 * b1 + b2 * b2) = 0)%R).
  { replace ((a1 * a1 + a2 * a2) * (b1 * b1 + b2 * b2))%R with ((a1 * b1 - a2 * b2) * (a1 * b1 - a2 * b2) + (a1 * b2 + a2 * b1) * (a1 * b2 + a2 * b1))%R by ring. rewrite E1, E2. ring. }
  apply Rmult_integral in E3. destruct E3 as [E3|E3]; [left|right]; f_equal; nra.
Qed.
Lemma cprod_0 l : cprod l = (0, 0)%R <-> In (0, 0)%R l.
Proof.
  induction l as [|a l IH]; cbn [cprod In].
  - split; [|easy]. intros E. assert (1 = 0)%R by congruence. lra.
  - rewrite <- IH. split; [intros E; apply cmul_0 in E; tauto|]. intros [->|E]; [cring|rewrite E; cring].
Qed.

Lemma conv_len a r : length (convolve_root a r) = S (length a).
Proof. unfold convolve_root. rewrite map_length, combine_length, app_length. cbn [length]. lia. Qed.
Lemma value_app0 a z : poly_value (a ++ [(0, 0)%R]) z = cmul z (poly_value a z).
Proof.
  induction a as [|c a IH]; cbn [app poly_value]; [cring|]. rewrite IH, app_length. cbn [length]. rewrite Nat.add_1_r. cbn [cpow]. cring.
Qed.
Lemma value_zip r u v z : length u = length v ->
  poly_value (map (fun uv => cadd (fst uv) (cmul (copp r) (snd uv))) (combine u v)) z = cadd (poly_value u z) (cmul (copp r) (poly_value v z)).
Proof.
  revert v. induction u as [|a u IH]; intros [|b v] H; try discriminate; cbn [combine map poly_value fst snd]; [cring|].
  injection H as H. rewrite IH by assumption. rewrite map_length, combine_length, <- H, Nat.min_id. cring.
Qed.
Lemma value_conv a r z : poly_value (convolve_root a r) z = cmul (cadd z (copp r)) (poly_value a z).
Proof.
  unfold convolve_root. rewrite value_zip by (rewrite app_length; cbn [length]; lia). rewrite value_app0. cbn [poly_value]. rewrite (cmul_comm (0, 0)%R). cring.
Qed.
Lemma conv_head a r c : nth_error a 0 = Some c -> nth_error (convolve_root a r) 0 = Some c.
Proof. destruct a as [|c' a]; [discriminate|]. cbn. intros E. rewrite E || idtac. injection E as ->. f_equal. destruct c. cring. Qed.
Lemma poly_fold roots : forall a c, nth_error a 0 = Some c ->
  length (fold_left convolve_root roots a) = (length roots + length a)%nat /\ nth_error (fold_left convolve_root roots a) 0 = Some c /\
  forall z, poly_value (fold_left convolve_root roots a) z = cmul (cprod (map (fun r => cadd z (copp r)) roots)) (poly_value a z).
Proof.
  induction roots as [|r roots IH]; intros a c Hc; cbn [fold_left length map cprod Nat.add].
  - split; [reflexivity|]. split; [assumption|]. intros z. now rewrite cmul_1_l.
  - destruct (IH (convolve_root a r) c (conv_head a r c Hc)) as [A [B C]]. rewrite A, conv_len. split; [lia|]. split; [assumption|]. intros z. rewrite C, value_conv. cring.
Qed.
Lemma poly_ok roots : is_monic_with_roots (fold_left convolve_root roots [(1, 0)%R]) roots.
Proof.
  destruct (poly_fold roots [(1, 0)%R] _ eq_refl) as [A [B C]]. split; [rewrite A; cbn; lia|]. split; [assumption|]. intros z. rewrite C. cbn [poly_value cpow length]. cring.
Qed.

(** order of roots *)
Lemma nth_conv a r k : nth k (convolve_root a r) (0, 0)%R =
  cadd (nth k a (0, 0)%R) (cmul (copp r) (match k with O => (0, 0)%R | S k' => nth k' a (0, 0)%R end)).
Proof.
  unfold convolve_root. set (f := fun uv => _). assert (F0 : f ((0, 0), (0, 0))%R = (0, 0)%R) by (unfold f; cring). transitivity (nth k (map f (combine (a ++ [(0, 0)%R]) ((0, 0)%R :: a))) (f ((0, 0), (0, 0))%R)); [now rewrite F0|]. rewrite map_nth.
  rewrite combine_nth by (rewrite app_length; cbn [length]; lia). unfold f. cbn [fst snd]. f_equal.
  destruct (Nat.lt_ge_cases k (length a)); [now rewrite app_nth1|]. rewrite app_nth2 by assumption. rewrite (nth_overflow a) by assumption. destruct (k - length a)%nat as [|[|]]; reflexivity.
Qed.
Lemma conv_comm a r s : convolve_root (convolve_root a r) s = convolve_root (convolve_root a s) r.
Proof.
  apply (nth_ext _ _ (0, 0)%R (0, 0)%R); [now rewrite !conv_len|]. intros k _. rewrite !nth_conv. destruct k as [|k]; [cring|]. rewrite !nth_conv. destruct k; cring.
Qed.
Lemma fold_conv_perm rs rs' : Permutation rs rs' -> forall a, fold_left convolve_root rs a = fold_left convolve_root rs' a.
Proof. induction 1; intros a; cbn [fold_left]; auto. - now rewrite conv_comm. - now rewrite IHPermutation1. Qed.

Lemma root_ok t p : (fst p <> snd p) -> is_root t p (root_of t p).
Proof.
  intros N. destruct t; cbn [is_root root_of]; [reflexivity| |unfold alpha_of; split; reflexivity].
  cbv zeta. assert (P : (0 < alpha_of p)%R).
  { unfold alpha_of. apply sqrt_lt_R0. assert (qr (fst p) <> qr (snd p)) by (intros E; apply N; now apply qr_inj).
    pose proof (Rle_0_sqr (qr (fst p) - qr (snd p))) as Q. unfold Rsqr in Q. destruct (Req_dec (qr (fst p)) 0) as [E|E].
    - assert (F : qr (snd p) <> 0%R) by congruence. pose proof (Rsqr_pos_lt _ F) as G. unfold Rsqr in G. rewrite E. lra.
    - pose proof (Rsqr_pos_lt _ E) as G. unfold Rsqr in G. pose proof (Rle_0_sqr (qr (snd p))) as G'. unfold Rsqr in G'. lra. }
  destruct (Req_EM_T (alpha_of p) 0) as [Z|_]; [lra|]. pose proof (sqrt_lt_R0 2 ltac:(lra)). cbn [fst snd]. fold (alpha_of p). split; field; lra.
Qed.


Lemma py_sub_upto {A} (l : list A) d : 0 <= d <= zlen l -> zlen (py_sub None (Some d) l) = d /\
  forall i, 0 <= i < d -> Znth (py_sub None (Some d) l) i = Znth l i.
Proof.
  intros H. assert (E : py_sub None (Some d) l = py_sub (Some 0) (Some d) l).
  { unfold py_sub, py_slice. assert (Es : slice_start 1 (zlen l) (Some 0) = slice_start 1 (zlen l) None); [|now rewrite Es].
    unfold slice_start, clip_index. cbn [Z.ltb Z.compare]. lia. }
  rewrite E. destruct (py_sub_spec l 0 d ltac:(lia) ltac:(lia)) as [A1 B1]. split; [lia|]. intros i Hi. rewrite B1 by lia. f_equal; lia.
Qed.
Lemma zlen_repeat {A} (a : A) n : 0 <= n -> zlen (repeat a (Z.to_nat n)) = n.
Proof. intros H. unfold zlen. rewrite repeat_length. lia. Qed.
Lemma Znth_repeat {A} (a : A) n i : 0 <= i < n -> Znth (repeat a (Z.to_nat n)) i = Some a.
Proof.
  intros H. destruct (Znth_ex (repeat a (Z.to_nat n)) i) as [b Eb]; [rewrite zlen_repeat; lia|]. rewrite Eb. f_equal. apply Znth_In in Eb. now apply repeat_spec in Eb.
Qed.

Lemma block_ok n c : 0 <= n -> (0 < length c)%nat ->
  let coefficients := py_sub (Some 1) None c in
  let dimension := Z.min n (zlen coefficients) in
  let cs := py_sub None (Some dimension) coefficients in
  let zeros := repeat 0%R (Z.to_nat (n - dimension)) in
  is_block n c ((map fst cs ++ zeros) ++ (map snd cs ++ zeros)).
Proof.
  intros Hn Hc. cbv zeta. destruct (py_sub_from c 1 ltac:(lia)) as [L1 N1]. set (co := py_sub (Some 1) None c) in *.
  assert (Lc : 1 <= zlen c) by (unfold zlen; lia). set (d := Z.min n (zlen co)). destruct (py_sub_upto co d ltac:(unfold d; lia)) as [L2 N2]. set (cs := py_sub None (Some d) co) in *.
  assert (Hd : 0 <= d <= n) by (unfold d; lia).
  assert (LZ : forall f : R * R -> R, zlen (map f cs ++ repeat 0%R (Z.to_nat (n - d))) = n) by (intros f; rewrite zlen_app, zlen_map, zlen_repeat by lia; lia).
  assert (NZ : forall (f : R * R -> R) k, f (0, 0)%R = 0%R -> 0 <= k < n -> Znth (map f cs ++ repeat 0%R (Z.to_nat (n - d))) k = Some (f (match Znth c (k + 1) with Some a => a | None => (0, 0)%R end))).
  { intros f k F0 Hk. destruct (Z.lt_ge_cases k d) as [C|C].
    - rewrite Znth_app1 by (rewrite zlen_map; lia). rewrite Znth_map, N2 by lia. assert (k < zlen co) by (unfold d in *; lia). rewrite N1 by lia. rewrite (Z.add_comm 1 k).
      destruct (Znth_ex c (k + 1)) as [a Ea]; [lia|]. rewrite Ea. reflexivity.
    - rewrite Znth_app2 by (rewrite zlen_map; lia). rewrite zlen_map, L2. rewrite Znth_repeat by lia. assert (zlen co <= k) by (unfold d in *; lia).
      rewrite (Znth_None c) by lia. now rewrite F0. }
  split; [rewrite zlen_app, !LZ; lia|]. intros k Hk. split.
  - rewrite Znth_app1 by (rewrite LZ; lia). now apply NZ.
  - rewrite Znth_app2 by (rewrite LZ; lia). rewrite LZ. replace (n + k - n) with k by lia. now apply NZ.
Qed.

Lemma complex_polynomial1_ok t n x : 0 <= n -> off_diagonal x <> [] ->
  exists block, complex_polynomial1 t n x = Ok block /\ is_polynomial_feature t n x block.
Proof.
  intros Hn N. unfold complex_polynomial1. fold (off_diagonal x). set (roots := map (root_of t) (off_diagonal x)).
  assert (EP : np_poly roots = Some (fold_left convolve_root roots [(1, 0)%R])) by (unfold roots; destruct (off_diagonal x); [easy|reflexivity]).
  rewrite EP. cbv zeta. eexists. split; [reflexivity|]. exists roots, (fold_left convolve_root roots [(1, 0)%R]). split; [|split].
  - unfold roots. apply Forall2_map_right. apply Forall2_same. intros p Hp. apply root_ok. now apply off_diagonal_In in Hp.
  - apply poly_ok.
  - apply block_ok; [assumption|]. destruct (poly_ok roots) as [-> _]. lia.
Qed.
Lemma complex_polynomial1_same t n x x' : same_off_diagonal x x' -> complex_polynomial1 t n x = complex_polynomial1 t n x'.
Proof.
  intros H. unfold complex_polynomial1. fold (off_diagonal x). fold (off_diagonal x'). unfold same_off_diagonal in H. pose proof (Permutation_map (root_of t) H) as P.
  assert (E : np_poly (map (root_of t) (off_diagonal x)) = np_poly (map (root_of t) (off_diagonal x'))); [|now rewrite E].
  unfold np_poly. destruct (map (root_of t) (off_diagonal x)) eqn:E1; [apply Permutation_nil in P; now rewrite P|].
  destruct (map (root_of t) (off_diagonal x')) eqn:E2; [apply Permutation_sym, Permutation_nil in P; discriminate|]. f_equal. now apply fold_conv_perm.
Qed.

(** the transform *)
Lemma fit_coefficients_ok nc X : trainable X -> match nc with NCper l => forall dims, dimensions_of X dims -> zlen l = zlen dims | _ => True end ->
  exists g, fit_coefficients nc X = Ok g /\ g <> [] /\ coefficient_counts nc X g.
Proof.
  intros HT HL. destruct (first_dims_ok X HT) as [dims [E1 [Hd HD]]]. unfold fit_coefficients. rewrite E1. cbn [bind]. destruct nc as [|n|l].
  - destruct X as [|x0 X]; [now destruct HT|]. eexists. split; [reflexivity|]. split; [destruct dims; [easy|discriminate]|]. split.
    + rewrite map_map. cbn [fst]. now rewrite map_id.
    + intros q n Hq. apply in_map_iff in Hq. destruct Hq as [q' [E Hq]]. assert (q' = q) by congruence. assert (Ez : zlen (filter (fun z => feq z q') (map pq x0)) = n) by congruence. subst q' n. cbn [hd].
      unfold rows_of. clear. induction x0 as [|p x0 IH]; [reflexivity|]. cbn [map filter]. destruct (feq (pq p) q); [rewrite !zlen_cons; lia|assumption].
  - eexists. split; [reflexivity|]. split; [destruct dims; [easy|discriminate]|]. split; [rewrite map_map; cbn [fst]; now rewrite map_id|].
    intros q m Hq. apply in_map_iff in Hq. destruct Hq as [q' [E Hq]]. congruence.
  - rewrite (HL dims HD), Z.eqb_refl. specialize (HL dims HD). assert (LL : length dims = length l) by (unfold zlen in HL; lia). eexists. split; [reflexivity|].
    split; [destruct dims, l; try easy; discriminate|]. split.
    + assert (E : map fst (combine dims l) = dims); [|now rewrite E]. clear - LL. revert l LL. induction dims; intros [|b l] LL; try discriminate; [reflexivity|]. cbn [combine map fst]. f_equal. apply IHdims. now injection LL.
    + clear - LL. revert l LL. induction dims; intros [|b l] LL; try discriminate; [reflexivity|]. cbn [combine map snd]. f_equal. apply IHdims. now injection LL.
Qed.

Definition rows_ok {A B} (f : A -> list B) (n : Z) l := forall a, In a l -> zlen (f a) = n.
Lemma reshape_rows {B} (L : list (list B)) n : L <> [] -> (forall r, In r L -> zlen r = n) ->
  (if zlen (concat L) mod zlen L =? 0 then np_reshape (zlen L) (zlen (concat L) / zlen L) (concat L) else Err ValueError) = Ok L.
Proof.
  intros HL H. assert (0 < zlen L) by (destruct L; [easy|rewrite zlen_cons; pose proof (zlen_nonneg L); lia]).
  assert (0 <= n) by (destruct L as [|r L]; [easy|]; rewrite <- (H r (or_introl eq_refl)); apply zlen_nonneg).
  rewrite (zlen_concat_uniform L n H). rewrite Z.mul_comm, Z.mod_mul, Z.eqb_refl, Z.div_mul by lia. now apply np_reshape_concat.
Qed.
Lemma complex_polynomial_ok t nc X g : fit_coefficients nc X = Ok g -> g <> [] -> (forall q, In q (map fst g) -> In q (map pq (hd [] X))) -> (forall q n, In (q, n) g -> 0 <= n) ->
  forall Y, transformable (map pq (hd [] X)) Y -> (forall y q, In y Y -> In q (map pq (hd [] X)) -> off_diagonal (points_of q y) <> []) ->
  complex_polynomial t nc X Y = Ok (map (fun y => concat (map (fun e => match complex_polynomial1 t (snd e) (points_of (fst e) y) with Ok b => b | Err _ => [] end) g)) Y).
Proof.
  intros E Hg HK Hn Y HY HO. unfold complex_polynomial. rewrite E. cbn [bind].
  set (h := fun (ye : diagram * (fl * Z)) => match complex_polynomial1 t (snd (snd ye)) (points_of (fst (snd ye)) (fst ye)) with Ok b => b | Err _ => [] end).
  rewrite (mapM_Ok _ h).
  2:{ intros [y [q n]] Hin. apply in_flat_map in Hin. destruct Hin as [y' [Hy Hin]]. apply in_map_iff in Hin. destruct Hin as [e [Ee He]].
      assert (y' = y) by congruence. assert (e = (q, n)) by congruence. subst y' e. cbn [fst snd].
      assert (Hq : In q (map pq (hd [] X))) by (apply HK; apply in_map_iff; exists (q, n); auto).
      rewrite subdiagrams_ok; [|easy|easy|]. 2:{ intros q' [<-|[]]. eexists. intros x [<-|[]]. reflexivity. }
      cbn [bind map concat]. rewrite app_nil_r. rewrite (points_of_to_q q Y y) by (auto; apply HY). unfold h. cbn [fst snd].
      destruct (complex_polynomial1_ok t n (points_of q y) (Hn q n He) (HO y q Hy Hq)) as [b [-> _]]. reflexivity. }
  cbn [bind]. set (rows := map (fun y => concat (map (fun e => h (y, e)) g)) Y).
  assert (EF : map h (flat_map (fun y => map (fun d => (y, d)) g) Y) = flat_map (fun y => map (fun e => h (y, e)) g) Y).
  { clear. induction Y as [|y Y IH]; [reflexivity|]. cbn [flat_map]. rewrite map_app, IH, map_map. reflexivity. }
  rewrite EF. assert (EC : concat (flat_map (fun y => map (fun e => h (y, e)) g) Y) = concat rows) by (unfold rows; apply (concat_map_flat (fun y e => h (y, e)))).
  cbv zeta. rewrite EC. destruct (flat_map (fun y => map (fun e => h (y, e)) g) Y) eqn:EN.
  { exfalso. destruct HY as [HY _]. destruct Y as [|y Y]; [easy|]. destruct g as [|e g]; [easy|]. discriminate EN. }
  assert (LR : zlen rows = zlen Y) by (unfold rows; apply zlen_map). rewrite <- LR.
  rewrite (reshape_rows rows (fold_right Z.add 0 (map (fun e => 2 * snd e) g))).
  - reflexivity.
  - unfold rows. destruct HY as [HY _]. destruct Y; [easy|discriminate].
  - intros r Hr. unfold rows in Hr. apply in_map_iff in Hr. destruct Hr as [y [<- Hy]]. rewrite zlen_concat, map_map. f_equal. apply map_ext_in. intros [q n] He. unfold h. cbn [fst snd].
    assert (Hq : In q (map pq (hd [] X))) by (apply HK; apply in_map_iff; exists (q, n); auto).
    destruct (complex_polynomial1_ok t n (points_of q y) (Hn q n He) (HO y q Hy Hq)) as [b [-> [ro [c [_ [_ [Lb _]]]]]]]. exact Lb.
Qed.

Lemma subdiagrams_one q y : subdiagrams [y] [q] = Ok [rows_of q y].
Proof.
  rewrite subdiagrams_ok; [|easy|easy|]. 2:{ intros q' [<-|[]]. eexists. intros x [<-|[]]. reflexivity. }
  cbn [map concat]. now rewrite app_nil_r.
Qed.
Lemma mapM_Err {A B} (f : A -> res B) (l1 l2 : list A) a e : (forall x, In x l1 -> exists b, f x = Ok b) -> f a = Err e -> mapM f (l1 ++ a :: l2) = Err e.
Proof.
  intros H E. induction l1 as [|x l1 IH]; cbn [app mapM].
  - now rewrite E.
  - destruct (H x (or_introl eq_refl)) as [b ->]. cbn [bind]. rewrite IH; [reflexivity|]. intros z Hz. apply H. now right.
Qed.
