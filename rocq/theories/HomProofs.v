(** Lemmas for the persistent homology transformers. *)
From Coq Require Import Sorting.Permutation Sorting.Sorted.
From Verif Require Import Np NpFacts Fl FlFacts Nd NdFacts DiagModel DiagSpec DiagProofs DiagProofs2 DiagProofs3
  HomModel HomSpec.
From Verif Require CoverProofs.
Open Scope Z_scope.

(** ** Sorting and fit *)
Lemma sorted_ints_perm l : Permutation l (sorted_ints l).
Proof. apply CoverProofs.sort_perm. Qed.
Lemma sorted_ints_sorted l : StronglySorted (fun a b => (a <=? b) = true) (sorted_ints l).
Proof. apply CoverProofs.sort_sorted; intros; lia. Qed.
Lemma In_sorted_ints l x : In x (sorted_ints l) <-> In x l.
Proof. split; apply Permutation_in; [symmetry|]; apply sorted_ints_perm. Qed.

Lemma sorted_last_ge (l : list Z) d : StronglySorted (fun a b => (a <=? b) = true) l -> forall x, In x l -> x <= last l d.
Proof.
  induction 1 as [|a l S IH F]; intros x Hx; [destruct Hx|].
  destruct l as [|b l]; [destruct Hx as [->|[]]; simpl; lia|].
  change (last (a :: b :: l) d) with (last (b :: l) d). destruct Hx as [<-|Hx]; [|auto].
  apply Z.le_trans with b; [|apply IH; now left]. inversion F; subst. lia.
Qed.
Lemma In_last (l : list Z) d : l <> [] -> In (last l d) l.
Proof. intros H. destruct (exists_last H) as [l' [a ->]]. rewrite last_last. apply in_or_app. right. now left. Qed.
Lemma py_get_last (l : list Z) d : l <> [] -> py_get l (-1) = Ok (last l d).
Proof.
  intros H. destruct (exists_last H) as [l' [a ->]]. rewrite last_last.
  unfold py_get. change (-1 <? 0) with true. cbv iota. rewrite zlen_app. change (zlen [a]) with 1.
  rewrite Znth_app2 by lia. replace (-1 + (zlen l' + 1) - zlen l') with 0 by lia. reflexivity.
Qed.
Lemma hom_fit_ok dims t i : dims <> [] -> exists lo hi,
  least dims lo /\ greatest dims hi /\
  hom_fit dims t i = Ok (Fitted (sorted_ints dims) lo hi (match i with None => t | Some v => v end)).
Proof.
  intros H. assert (Hs : sorted_ints dims <> []).
  { intros E. apply H. pose proof (sorted_ints_perm dims) as P. rewrite E in P. apply Permutation_nil. now symmetry. }
  exists (hd 0 (sorted_ints dims)), (last (sorted_ints dims) 0). split; [|split].
  - pose proof (sorted_ints_sorted dims) as S. destruct (sorted_ints dims) as [|a l] eqn:E; [easy|]. cbn [hd]. split.
    + apply In_sorted_ints. rewrite E. now left.
    + intros x Hx. apply In_sorted_ints in Hx. rewrite E in Hx. destruct Hx as [->|Hx]; [lia|].
      inversion S as [|? ? _ F]; subst. rewrite Forall_forall in F. specialize (F x Hx). lia.
  - split; [apply In_sorted_ints, In_last, Hs|]. intros x Hx. apply sorted_last_ge; [apply sorted_ints_sorted|now apply In_sorted_ints].
  - unfold hom_fit. rewrite (py_get_last _ 0 Hs). destruct (sorted_ints dims) as [|a l]; [easy|]. reflexivity.
Qed.

(** ** Transform *)
Lemma flt_irrefl x : flt x x = false.
Proof. destruct x; try reflexivity. cbn. destruct (Qcltb q q) eqn:E; [|reflexivity]. apply Qcltb_lt in E. exfalso. qlra. Qed.
Lemma meaningful_app a b : meaningful (a ++ b) = meaningful a ++ meaningful b.
Proof. apply filter_app. Qed.
Lemma meaningful_diag k m q : meaningful (diag_rows k m q) = [].
Proof. unfold diag_rows. induction (Z.to_nat k); cbn; [reflexivity|]. now rewrite flt_irrefl. Qed.
Lemma meaningful_nontrivial r i d dim : meaningful (nontrivial_rows r i d dim) = nontrivial_rows r i d dim.
Proof.
  unfold meaningful, nontrivial_rows. set (l := map _ _). induction l as [|p l IH]; cbn [filter]; [reflexivity|].
  destruct (flt (pb p) (pd p)) eqn:E; cbn [filter]; [rewrite E; congruence|assumption].
Qed.

Lemma NoDup_sorted_ints l : NoDup l -> NoDup (sorted_ints l).
Proof. intros H. eapply Permutation_NoDup; [apply sorted_ints_perm|assumption]. Qed.

Lemma transform_ok {A} junk (dg : A -> backend) f reduced X :
  X <> [] -> f_dims f <> [] -> NoDup (f_dims f) ->
  (forall x dim, In x X -> In dim (f_dims f) -> has_dimension (dg x) dim) ->
  exists R, hom_transform junk dg f reduced X = Ok R /\
    is_diagrams_of (fun x dim => nontrivial_rows reduced (f_inf f) (dg x) dim) (f_dims f) X R.
Proof.
  intros HX Hd HN HD. unfold hom_transform.
  assert (HX' : map dg X <> []) by (destruct X; [easy|discriminate]).
  assert (HD' : forall d dim, In d (map dg X) -> In dim (f_dims f) -> has_dimension d dim).
  { intros d dim Hi Hj. apply in_map_iff in Hi. destruct Hi as [x [<- Hx]]. auto. }
  destruct (postprocess_ok junk (map dg X) (f_dims f) (f_inf f) reduced HX' HD') as [ns [ms [Ln [Lm [Hnm E]]]]].
  match type of E with _ = Ok ?R => set (RR := R) in E end.
  exists RR. split; [exact E|].
  destruct (postprocess_valid junk _ _ _ _ _ HX' Hd HD' E) as [N [HN1 [HL [HLen [Hq [Hne _]]]]]].
  pose proof (postprocess_rows junk _ _ _ _ _ HX' HN HD' E) as Hrows.
  split; [rewrite HL; apply zlen_map|]. split; [|split].
  - intros i x r Hx Hr. split.
    + intros dim Hdim. destruct (Hrows dim Hdim) as [n [m [_ [_ EQ]]]].
      apply (f_equal (fun L => Znth L i)) in EQ. rewrite !Znth_map, Hr, Hx in EQ. cbn [option_map] in EQ.
      injection EQ as ->. unfold padded. now rewrite meaningful_app, meaningful_diag, app_nil_r, meaningful_nontrivial.
    + intros p Hp. unfold RR in Hr. rewrite map_map, Znth_map, Hx in Hr. cbn [option_map] in Hr. injection Hr as <-.
      apply in_concat in Hp. destruct Hp as [l [Hl Hp]]. apply in_map_iff in Hl. destruct Hl as [[dim nm] [<- Hc]].
      exists dim. split; [now apply in_combine_l in Hc|]. cbn [fst snd] in Hp. unfold padded in Hp. apply in_app_iff in Hp. destruct Hp as [Hp|Hp].
      * unfold nontrivial_rows in Hp. apply filter_In in Hp. destruct Hp as [Hp _]. apply in_map_iff in Hp. destruct Hp as [bd [<- _]]. reflexivity.
      * unfold diag_rows in Hp. apply repeat_spec in Hp. now subst p.
  - intros r r' Hr Hr'. now apply Hq.
  - intros r dim Hr Hdim. now apply Hne.
Qed.

Lemma is_diagrams_of_ext {A} (P Q : A -> Z -> diagram) dims dims' (X : list A) R :
  (forall dim, In dim dims <-> In dim dims') -> (forall x dim, In x X -> In dim dims' -> P x dim = Q x dim) ->
  is_diagrams_of P dims X R -> is_diagrams_of Q dims' X R.
Proof.
  intros HD HP [L [H1 [H2 H3]]]. split; [assumption|]. split; [|split; [assumption|]].
  - intros i x r Hx Hr. destruct (H1 i x r Hx Hr) as [A1 A2]. split.
    + intros dim Hdim. rewrite <- HP; [apply A1, HD, Hdim| |assumption]. eapply Znth_In; eassumption.
    + intros p Hp. destruct (A2 p Hp) as [dim [I E]]. exists dim. split; [now apply HD|assumption].
  - intros r dim Hr Hdim. apply H3; [assumption|now apply HD].
Qed.

Lemma fit_transform_ok {A} junk (dg : fitted -> A -> backend) dims t inf reduced X :
  X <> [] -> dims <> [] -> NoDup dims ->
  exists lo hi f, least dims lo /\ greatest dims hi /\ hom_fit dims t inf = Ok f /\ f_min f = lo /\ f_max f = hi /\
    (forall d, In d (f_dims f) <-> In d dims) /\
    f_inf f = match inf with None => t | Some v => v end /\
    ((forall x dim, In x X -> In dim dims -> has_dimension (dg f x) dim) ->
     exists R, hom_transform junk (dg f) f reduced X = Ok R /\
       is_diagrams_of (fun x dim => nontrivial_rows reduced (f_inf f) (dg f x) dim) dims X R).
Proof.
  intros HX Hd HN. destruct (hom_fit_ok dims t inf Hd) as [lo [hi [Hlo [Hhi E]]]].
  exists lo, hi. eexists. split; [exact Hlo|]. split; [exact Hhi|]. split; [exact E|].
  split; [reflexivity|]. split; [reflexivity|]. split; [apply In_sorted_ints|]. split; [reflexivity|].
  intros HD. destruct (transform_ok junk (dg (Fitted (sorted_ints dims) lo hi match inf with None => t | Some v => v end)) (Fitted (sorted_ints dims) lo hi match inf with None => t | Some v => v end) reduced X) as [R [ER HR]].
  - assumption.
  - intros E0. cbn [f_dims] in E0. apply Hd. pose proof (sorted_ints_perm dims) as P. rewrite E0 in P. apply Permutation_nil. now symmetry.
  - now apply NoDup_sorted_ints.
  - intros x dim Hx Hdim. apply HD; [assumption|]. now apply In_sorted_ints.
  - exists R. split; [exact ER|]. eapply is_diagrams_of_ext; [|reflexivity|exact HR]. intros; apply In_sorted_ints.
Qed.

(** ** flagser *)
Lemma list_times_nil {A} k : @list_times (list A) [[]] k = repeat [] (Z.to_nat k).
Proof. unfold list_times. induction (Z.to_nat k) as [|n IH]; [reflexivity|]. cbn. now f_equal. Qed.
Lemma zlen_repeat' {A} (x : A) k : 0 <= k -> zlen (repeat x (Z.to_nat k)) = k.
Proof. intros H. unfold zlen. rewrite repeat_length. lia. Qed.
Lemma Znth_repeat' {A} (x : A) k i : 0 <= i < k -> Znth (repeat x (Z.to_nat k)) i = Some x.
Proof.
  intros H. destruct (Znth_ex (repeat x (Z.to_nat k)) i) as [y Hy]; [rewrite zlen_repeat'; lia|].
  rewrite Hy. apply Znth_In in Hy. apply repeat_spec in Hy. congruence.
Qed.
Lemma flagser_diagram_ok lo hi (fl0 : Z -> Z -> list (list (fl * fl))) : 0 <= lo <= hi ->
  let L := flagser_diagram lo hi fl0 in
  zlen L = Z.max (hi + 1) (lo + zlen (fl0 lo hi)) /\
  forall d, 0 <= d < zlen L ->
    Znth L d = Some (if d <? lo then [] else match Znth (fl0 lo hi) (d - lo) with Some s => s | None => [] end).
Proof.
  intros H L. pose proof (zlen_nonneg (fl0 lo hi)) as Hk.
  set (base := list_times [[]] lo ++ fl0 lo hi).
  assert (Hb : zlen base = lo + zlen (fl0 lo hi)).
  { unfold base. rewrite zlen_app, list_times_nil, zlen_repeat'; lia. }
  assert (EL : L = base ++ repeat [] (Z.to_nat (hi + 1 - zlen base))).
  { unfold L, flagser_diagram. fold base. rewrite list_times_nil. destruct (Z.eqb_spec (hi + 1 - zlen base) 0) as [E|E]; cbn [negb]; [|reflexivity].
    rewrite E. cbn. now rewrite app_nil_r. }
  assert (Hz : zlen L = Z.max (hi + 1) (lo + zlen (fl0 lo hi))).
  { rewrite EL, zlen_app. unfold zlen at 2. rewrite repeat_length. lia. }
  split; [exact Hz|]. intros d Hd. rewrite Hz in Hd.
  assert (Hbase : forall j, 0 <= j < zlen base -> Znth base j = Some (if j <? lo then [] else match Znth (fl0 lo hi) (j - lo) with Some s => s | None => [] end)).
  { intros j Hj. unfold base. rewrite list_times_nil. destruct (Z.ltb_spec j lo).
    - rewrite Znth_app1 by (rewrite zlen_repeat'; lia). apply Znth_repeat'; lia.
    - rewrite Znth_app2 by (rewrite zlen_repeat'; lia). rewrite zlen_repeat' by lia.
      destruct (Znth_ex (fl0 lo hi) (j - lo)) as [s Es]; [lia|]. now rewrite Es. }
  rewrite EL. destruct (Z_lt_ge_dec d (zlen base)).
  - rewrite Znth_app1 by lia. apply Hbase. lia.
  - rewrite Znth_app2 by lia. rewrite Znth_repeat' by lia.
    destruct (Z.ltb_spec d lo); [reflexivity|]. rewrite Znth_None by lia. reflexivity.
Qed.

(** ** Weak alpha complexes *)
Fixpoint starts (off : Z) (rows : list (list Z)) : list Z :=
  match rows with [] => [] | r :: t => off :: starts (off + zlen r) t end.
Fixpoint ends (off : Z) (rows : list (list Z)) : list Z :=
  match rows with [] => [] | r :: t => (off + zlen r) :: ends (off + zlen r) t end.

Lemma zlen_ends rows : forall off, zlen (ends off rows) = zlen rows.
Proof. induction rows as [|r t IH]; intros; [reflexivity|]. cbn [ends]. now rewrite !zlen_cons, IH. Qed.
Lemma ends_starts r rows : forall off, removelast (ends off (r :: rows)) = starts (off + zlen r) rows.
Proof.
  revert r. induction rows as [|s t IH]; intros r off; [reflexivity|].
  change (ends off (r :: s :: t)) with ((off + zlen r) :: ends (off + zlen r) (s :: t)).
  cbn [starts]. rewrite <- IH. reflexivity.
Qed.
Lemma csr_ends rows : forall off ptr, zlen ptr = zlen rows + 1 -> Znth ptr 0 = Some off ->
  (forall k r a b, Znth rows k = Some r -> Znth ptr k = Some a -> Znth ptr (k + 1) = Some b -> b = a + zlen r) ->
  ptr = off :: ends off rows.
Proof.
  induction rows as [|r t IH]; intros off ptr HL H0 H.
  - destruct ptr as [|a [|b ptr]]; [discriminate H0| |].
    + cbn in H0. now injection H0 as ->.
    + rewrite !zlen_cons in HL. pose proof (zlen_nonneg ptr). change (zlen (@nil (list Z))) with 0 in HL. lia.
  - pose proof (zlen_nonneg t). destruct ptr as [|a ptr]; [discriminate H0|]. cbn in H0. injection H0 as ->. cbn [ends]. f_equal.
    rewrite !zlen_cons in HL. destruct (Znth_ex ptr 0) as [b Hb]; [lia|].
    assert (Eb : b = off + zlen r).
    { apply (H 0 r off b); [reflexivity|reflexivity|]. rewrite Znth_cons. exact Hb. lia. }
    subst b. apply IH; [lia|assumption|].
    intros k r' a b Hr Ha Hb'. assert (0 <= k < zlen t) by (eapply Znth_Some_lt; eassumption).
    apply (H (k + 1) r' a b).
    + replace (k + 1) with (1 + k) by lia. rewrite CoverProofs.Znth_S; [assumption|lia].
    + replace (k + 1) with (1 + k) by lia. rewrite CoverProofs.Znth_S; [assumption|lia].
    + replace (k + 1 + 1) with (1 + (k + 1)) by lia. rewrite CoverProofs.Znth_S; [assumption|lia].
Qed.
Lemma py_sub_inner (a : Z) l : l <> [] -> py_sub (Some 1) (Some (-1)) (a :: l) = removelast l.
Proof.
  intros H. assert (E : py_sub (Some 1) (Some (-1)) (a :: l) = py_sub (Some 1) (Some (zlen l)) (a :: l)).
  { unfold py_sub, py_slice, slice_stop. assert (0 < zlen l) by (destruct l; [easy|rewrite zlen_cons; pose proof (zlen_nonneg l); lia]).
    rewrite zlen_cons. unfold clip_index. cbn -[zlen slice_count slice_start Z.add Z.mul].
    repeat f_equal; destruct (Z.ltb_spec (zlen l) 0); lia. }
  rewrite E. destruct (exists_last H) as [l' [b ->]]. rewrite removelast_last.
  rewrite zlen_app. change (zlen [b]) with 1. pose proof (zlen_nonneg l').
  destruct (py_sub_spec (a :: l' ++ [b]) 1 (zlen l' + 1)) as [L N].
  - lia.
  - rewrite zlen_cons, zlen_app. change (zlen [b]) with 1. lia.
  - apply Znth_ext; [lia|]. intros i Hi. rewrite N by lia. rewrite CoverProofs.Znth_S by lia. now rewrite Znth_app1 by lia.
Qed.

Definition nonempty (r : list Z) : bool := match r with [] => false | _ => true end.
Definition ind (r : list Z) : list Z := 1 :: repeat 0 (length r - 1).
Lemma zlen_ind r : nonempty r = true -> zlen (ind r) = zlen r.
Proof. destruct r; [easy|]. intros _. unfold ind, zlen. cbn [length]. rewrite repeat_length. lia. Qed.

Lemma fancy_step pre x body t v : fancy_set (pre ++ x :: body) (zlen pre :: t) v = fancy_set (pre ++ v :: body) t v.
Proof.
  cbn [fancy_set]. pose proof (zlen_nonneg pre). pose proof (zlen_nonneg body).
  destruct (Z.ltb_spec (zlen pre) 0); [lia|]. rewrite zlen_app, zlen_cons.
  destruct (Z.leb_spec 0 (zlen pre)); [|lia]. destruct (Z.ltb_spec (zlen pre) (zlen pre + (zlen body + 1))); [|lia].
  cbn [andb]. now rewrite set_at_app2.
Qed.

Lemma fancy_ok rest : forall pre body,
  zlen body = zlen (concat rest) -> (forall k x, 1 <= k -> Znth body k = Some x -> x = 0) ->
  last rest [0] <> [] ->
  fancy_set (pre ++ body) (starts (zlen pre) rest) 1 = Ok (pre ++ concat (map ind (filter nonempty rest))).
Proof.
  induction rest as [|r t IH]; intros pre body HL HB Hlast.
  - destruct body; [reflexivity|]. rewrite zlen_cons in HL. pose proof (zlen_nonneg body). cbn in HL. lia.
  - assert (Hpos : body <> []).
    { intros ->. change (zlen (@nil Z)) with 0 in HL. symmetry in HL. destruct (exists_last (l := r :: t)) as [l' [b E]]; [discriminate|].
      rewrite E, last_last in Hlast. rewrite E, concat_app, zlen_app in HL. cbn [concat] in HL. rewrite app_nil_r in HL.
      pose proof (zlen_nonneg (concat l')). destruct b; [easy|]. rewrite zlen_cons in HL. pose proof (zlen_nonneg b). lia. }
    destruct body as [|x body]; [easy|]. cbn [starts]. rewrite fancy_step.
    assert (Hz : body = repeat 0 (length body)).
    { apply Znth_ext; [unfold zlen; now rewrite repeat_length|]. intros i Hi. destruct (Znth_ex body i) as [y Hy]; [lia|].
      rewrite Hy. symmetry. replace (length body) with (Z.to_nat (zlen body)) by (unfold zlen; lia). rewrite Znth_repeat' by lia.
      f_equal. symmetry. apply (HB (1 + i)); [lia|]. rewrite CoverProofs.Znth_S by lia. exact Hy. }
    cbn [concat] in HL. rewrite zlen_app in HL. rewrite zlen_cons in HL.
    destruct r as [|a r].
    + cbn [filter nonempty]. change (zlen (@nil Z)) with 0 in *. replace (zlen pre + 0) with (zlen pre) by lia.
      destruct t as [|b t]; [cbn in HL; pose proof (zlen_nonneg body); lia|].
      apply (IH pre (1 :: body)); [rewrite zlen_cons; lia| |exact Hlast].
      intros k y Hk Hy. apply (HB k); [assumption|]. rewrite Znth_cons in * by lia. exact Hy.
    + cbn [filter nonempty map concat]. 
      assert (Eb : pre ++ 1 :: body = (pre ++ ind (a :: r)) ++ repeat 0 (length body - length r)).
      { rewrite <- app_assoc. f_equal. unfold ind. cbn [app length]. rewrite Nat.sub_succ, Nat.sub_0_r. f_equal.
        rewrite <- repeat_app. rewrite Hz at 1. f_equal. rewrite zlen_cons in HL. pose proof (zlen_nonneg (concat t)). unfold zlen in *. lia. }
      rewrite Eb. replace (zlen pre + zlen (a :: r)) with (zlen (pre ++ ind (a :: r))) by (rewrite zlen_app, zlen_ind; reflexivity).
      rewrite IH.
      * now rewrite <- app_assoc.
      * rewrite zlen_cons in HL. unfold zlen in *. rewrite repeat_length. lia.
      * intros k y _ Hy. apply Znth_In in Hy. now apply repeat_spec in Hy.
      * destruct t; [discriminate|exact Hlast].
Qed.

Lemma cumsum_zeros n : forall a, cumsum_from a (repeat 0 n) = repeat a n.
Proof. induction n; intros a; [reflexivity|]. cbn [repeat cumsum_from]. rewrite Z.add_0_r. now f_equal. Qed.
Lemma sum_zeros n : fold_right Z.add 0 (repeat 0 n) = 0.
Proof. induction n; cbn [repeat fold_right]; lia. Qed.
Lemma cumsum_ind rest : forall a, forallb nonempty rest = true ->
  cumsum_from a (concat (map ind rest)) = concat (mapi_from (a + 1) (fun i r => map (fun _ => i) r) rest).
Proof.
  induction rest as [|r t IH]; intros a H; [reflexivity|]. cbn [forallb] in H. apply andb_prop in H. destruct H as [Hr Ht].
  cbn [map concat mapi_from]. rewrite cumsum_from_app. unfold ind at 1 2. cbn [cumsum_from fold_right]. rewrite cumsum_zeros, sum_zeros.
  replace (a + (1 + 0)) with (a + 1) by lia. rewrite IH by assumption. f_equal.
  destruct r as [|b r]; [discriminate|]. cbn [length map]. rewrite Nat.sub_succ, Nat.sub_0_r. f_equal.
  clear. induction r; [reflexivity|]. cbn. now f_equal.
Qed.
Lemma combine_const {A B} (x : A) (l : list B) : combine (map (fun _ => x) l) l = map (pair x) l.
Proof. induction l; [reflexivity|]. cbn. now f_equal. Qed.
Lemma combine_app_l {A B} (a c : list A) (b d : list B) : length a = length b -> combine (a ++ c) (b ++ d) = combine a b ++ combine c d.
Proof. revert b. induction a; intros [|y b] H; try discriminate; [reflexivity|]. cbn. f_equal. apply IHa. now injection H. Qed.
Lemma combine_rows (rows : list (list Z)) : forall a,
  combine (concat (mapi_from a (fun i r => map (fun _ => i) r) rows)) (concat rows) =
  concat (mapi_from a (fun i r => map (pair i) r) rows).
Proof.
  induction rows as [|r t IH]; intros a; [reflexivity|]. cbn [mapi_from concat].
  rewrite combine_app_l by apply map_length. now rewrite combine_const, IH.
Qed.
Definition row_entries {W} (dist : Z -> Z -> W) (i : Z) (r : list Z) : list (Z * Z * W) :=
  map (fun j => (i, j, dist i j)) (filter (fun j => i <? j) r).
Lemma select_rows {W} (dist : Z -> Z -> W) rows : forall a,
  map (fun rc : Z * Z => (fst rc, snd rc, dist (fst rc) (snd rc)))
    (filter (fun rc => fst rc <? snd rc) (concat (mapi_from a (fun i r => map (pair i) r) rows))) =
  concat (mapi_from a (row_entries dist) rows).
Proof.
  induction rows as [|r t IH]; intros a; [reflexivity|]. cbn [mapi_from concat].
  rewrite filter_app, map_app, IH. f_equal. unfold row_entries.
  clear. induction r as [|j r IH]; [reflexivity|]. cbn [map filter fst snd]. destruct (a <? j); cbn [map fst snd]; now rewrite <- IH.
Qed.

(** The rows as the code sees them: those without entries are dropped, except the first. *)
Lemma weak_alpha_ok {W} (dist : Z -> Z -> W) r0 rest indptr indices :
  csr (r0 :: rest) indptr indices -> last rest [0] <> [] ->
  weak_alpha_entries dist indptr indices =
    Ok (concat (mapi_from 0 (row_entries dist) (r0 :: filter nonempty rest))).
Proof.
  intros [E [HL [H0 HP]]] Hlast. subst indices. pose proof (csr_ends _ _ _ HL H0 HP) as ->. unfold weak_alpha_entries.
  rewrite py_sub_inner by (cbn [ends]; discriminate). rewrite ends_starts. change (0 + zlen r0) with (zlen r0).
  assert (EZ : map (fun _ => 0) (concat (r0 :: rest)) = repeat 0 (length r0) ++ repeat 0 (length (concat rest))).
  { rewrite <- repeat_app. cbn [concat]. rewrite <- app_length. clear. induction (r0 ++ concat rest); [reflexivity|]. cbn. now f_equal. }
  rewrite EZ. replace (zlen r0) with (zlen (repeat 0 (length r0))) by (unfold zlen; now rewrite repeat_length).
  rewrite fancy_ok; [|unfold zlen; now rewrite repeat_length| |exact Hlast].
  2:{ intros k x _ Hx. apply Znth_In in Hx. now apply repeat_spec in Hx. }
  cbn [bind]. unfold cumsum. rewrite cumsum_from_app, cumsum_zeros, sum_zeros.
  rewrite cumsum_ind.
  2:{ clear. induction rest as [|r t IH]; [reflexivity|]. cbn [filter]. destruct (nonempty r) eqn:E; [|assumption]. cbn [forallb]. now rewrite E. }
  change (0 + 0 + 1) with 1.
  assert (EC : concat (r0 :: rest) = concat (r0 :: filter nonempty rest)).
  { cbn [concat]. f_equal. clear. induction rest as [|r t IH]; [reflexivity|]. cbn [concat filter]. destruct r; cbn [nonempty]; [exact IH|]. cbn [concat]. now rewrite IH. }
  rewrite EC.
  replace (repeat 0 (length r0) ++ concat (mapi_from 1 (fun i r => map (fun _ => i) r) (filter nonempty rest)))
    with (concat (mapi_from 0 (fun i r => map (fun _ => i) r) (r0 :: filter nonempty rest))).
  2:{ cbn [mapi_from concat]. f_equal. clear. induction r0; [reflexivity|]. cbn. now f_equal. }
  now rewrite combine_rows, select_rows.
Qed.
Lemma In_concat_mapi {A B} (f : Z -> A -> list B) rows y : forall a,
  In y (concat (mapi_from a f rows)) <-> exists i r, Znth rows i = Some r /\ In y (f (a + i) r).
Proof.
  induction rows as [|r t IH]; intros a.
  - split; [intros []|]. intros [i [r [H _]]]. apply Znth_In in H. destruct H.
  - cbn [mapi_from concat]. rewrite in_app_iff, IH. split.
    + intros [H|[i [r' [H1 H2]]]]; [exists 0, r; split; [reflexivity|now rewrite Z.add_0_r]|].
      pose proof (Znth_Some_lt _ _ _ H1). exists (1 + i), r'. split; [rewrite CoverProofs.Znth_S by lia; assumption|]. now rewrite Z.add_assoc.
    + intros [i [r' [H1 H2]]]. pose proof (Znth_Some_lt _ _ _ H1). destruct (Z.eq_dec i 0) as [->|].
      * left. cbn in H1. injection H1 as ->. now rewrite Z.add_0_r in H2.
      * right. exists (i - 1), r'. split; [|now replace (a + 1 + (i - 1)) with (a + i) by lia].
        replace i with (1 + (i - 1)) in H1 by lia. rewrite CoverProofs.Znth_S in H1 by lia. exact H1.
Qed.
Lemma In_row_entries {W} (dist : Z -> Z -> W) i r a b w :
  In (a, b, w) (row_entries dist i r) <-> a = i /\ In b r /\ i < b /\ w = dist i b.
Proof.
  unfold row_entries. rewrite in_map_iff. split.
  - intros [j [E H]]. injection E as <- <- <-. apply filter_In in H. destruct H. lia || (split; [reflexivity|]; split; [assumption|]; split; [lia|reflexivity]).
  - intros [-> [H1 [H2 ->]]]. exists b. split; [reflexivity|]. apply filter_In. split; [assumption|]. lia.
Qed.
Lemma row_entries_fst {W} (dist : Z -> Z -> W) i r e : In e (row_entries dist i r) -> fst (fst e) = i.
Proof. destruct e as [[a b] w]. intros H. apply In_row_entries in H. cbn. tauto. Qed.
Lemma NoDup_entries {W} (dist : Z -> Z -> W) rows : forall a, (forall r, In r rows -> NoDup r) ->
  NoDup (concat (mapi_from a (row_entries dist) rows)).
Proof.
  induction rows as [|r t IH]; intros a H; [constructor|]. cbn [mapi_from concat].
  assert (Hr : NoDup (row_entries dist a r)).
  { specialize (H r (or_introl eq_refl)). unfold row_entries. clear - H. induction H as [|j r Hj _ IH]; [constructor|]. cbn [filter].
    destruct (a <? j) eqn:E; [|exact IH]. cbn [map]. constructor; [|exact IH]. intros I. apply in_map_iff in I. destruct I as [k [Ek Hk]].
    apply filter_In in Hk. injection Ek as -> _. tauto. }
  assert (Ht := IH (a + 1) (fun r' I => H r' (or_intror I))).
  revert Hr Ht. generalize (row_entries_fst dist a r). generalize (row_entries dist a r) as L. 
  assert (HF : forall e, In e (concat (mapi_from (a + 1) (row_entries dist) t)) -> fst (fst e) <> a).
  { intros [[x y] w] He. apply In_concat_mapi in He. destruct He as [i [r' [Hi He]]]. apply In_row_entries in He. apply Znth_Some_lt in Hi. cbn. lia. }
  induction L as [|e L IHL]; intros HL H1 H2; [assumption|]. cbn [app]. inversion H1; subst. constructor.
  - rewrite in_app_iff. intros [I|I]; [contradiction|]. apply (HF e I). apply HL. now left.
  - apply IHL; [|assumption|assumption]. intros e' I. apply HL. now right.
Qed.

(** A last vertex without neighbours *)
Lemma fancy_err idx : forall row v, (forall i, In i idx -> 0 <= i) -> (exists i, In i idx /\ zlen row <= i) -> fancy_set row idx v = Err IndexError.
Proof.
  induction idx as [|i t IH]; intros row v Hp [j [Hj Hr]]; [destruct Hj|]. cbn [fancy_set].
  assert (0 <= i) by (apply Hp; now left). destruct (Z.ltb_spec i 0); [lia|].
  destruct (Z.leb_spec 0 i); [|lia]. destruct (Z.ltb_spec i (zlen row)); cbn [andb]; [|reflexivity].
  apply IH; [intros; apply Hp; now right|]. exists j. destruct Hj as [->|Hj]; [lia|]. split; [assumption|]. now rewrite zlen_set_at.
Qed.
Lemma In_starts_nonneg rows : forall off, 0 <= off -> forall i, In i (starts off rows) -> 0 <= i.
Proof. induction rows as [|r t IH]; intros off H i Hi; [destruct Hi|]. destruct Hi as [<-|Hi]; [assumption|]. pose proof (zlen_nonneg r). apply (IH (off + zlen r)); [lia|assumption]. Qed.
Lemma In_starts_last rows r : forall off, In (off + zlen (concat rows)) (starts off (rows ++ [r])).
Proof.
  induction rows as [|s t IH]; intros off; cbn [app starts concat].
  - left. change (zlen (@nil Z)) with 0. lia.
  - right. rewrite zlen_app, Z.add_assoc. apply IH.
Qed.
Lemma weak_alpha_err {W} (dist : Z -> Z -> W) r0 rows indptr indices :
  csr (r0 :: rows ++ [[]]) indptr indices -> weak_alpha_entries dist indptr indices = Err IndexError.
Proof.
  intros [E [HL [H0 HP]]]. subst indices. pose proof (csr_ends _ _ _ HL H0 HP) as ->. unfold weak_alpha_entries.
  rewrite py_sub_inner by (cbn [ends]; discriminate). rewrite ends_starts. change (0 + zlen r0) with (zlen r0).
  pose proof (zlen_nonneg r0). rewrite fancy_err; [reflexivity| |].
  - apply In_starts_nonneg. assumption.
  - exists (zlen r0 + zlen (concat rows)). split; [apply In_starts_last|]. cbn [concat]. rewrite concat_app. cbn [concat app].
    rewrite zlen_map, app_nil_r, zlen_app. lia.
Qed.

(** ** Cubical complexes *)
Lemma size_snoc s n : nd_size (s ++ [n]) = nd_size s * n.
Proof. induction s as [|m s IH]; cbn [app nd_size]; [lia|]. rewrite IH. lia. Qed.
Lemma size_rev s : nd_size (rev s) = nd_size s.
Proof. induction s as [|n s IH]; [reflexivity|]. cbn [rev nd_size]. rewrite size_snoc, IH. lia. Qed.
Lemma ravel_snoc s : forall idx n i, length idx = length s -> ravel (s ++ [n]) (idx ++ [i]) = ravel s idx * n + i.
Proof.
  induction s as [|m s IH]; intros [|j idx] n i H; try discriminate; cbn [app ravel nd_size]; [lia|].
  rewrite IH by (now injection H). rewrite size_snoc. lia.
Qed.
Lemma inside_snoc s : forall idx n i, length idx = length s -> inside (s ++ [n]) (idx ++ [i]) = inside s idx && ((0 <=? i) && (i <? n)).
Proof.
  induction s as [|m s IH]; intros [|j idx] n i H; try discriminate; cbn [app inside]; [now rewrite andb_true_r|].
  rewrite IH by (now injection H). now rewrite andb_assoc.
Qed.
Lemma inside_rev s : forall idx, inside s idx = true -> inside (rev s) (rev idx) = true.
Proof.
  induction s as [|n s IH]; intros [|i idx] H; try discriminate; [reflexivity|]. cbn [rev]. cbn [inside] in H. apply andb_prop in H. destruct H as [H1 H2].
  rewrite inside_snoc by (rewrite !rev_length; now apply inside_length). rewrite IH, H1 by assumption. reflexivity.
Qed.
Lemma ravel_rev s : forall idx, inside s idx = true -> ravel (rev s) (rev idx) = column_major s idx.
Proof.
  induction s as [|n s IH]; intros [|i idx] H; try discriminate; [reflexivity|]. cbn [rev column_major]. cbn [inside] in H. apply andb_prop in H. destruct H as [H1 H2].
  rewrite ravel_snoc by (rewrite !rev_length; now apply inside_length). rewrite IH by assumption. lia.
Qed.
Lemma flatten_F_ok {A} (a : nd A) : wf a ->
  zlen (flatten_F a) = zlen (ndata a) /\
  forall idx, inside (nshape a) idx = true -> Znth (flatten_F a) (column_major (nshape a) idx) = Some (nget a idx).
Proof.
  intros [H1 H2]. unfold flatten_F. split.
  - rewrite zlen_map, zlen_indices, size_rev; [now symmetry|]. intros n Hn. apply H1. now apply in_rev.
  - intros idx H. rewrite <- ravel_rev by assumption. rewrite Znth_map, Znth_indices by (now apply inside_rev). cbn [option_map]. now rewrite rev_involutive.
Qed.

Lemma py_max_ok l : l <> [] -> (forall y, In y l -> isnan y = false) ->
  exists m, py_max l = Ok m /\ In m l /\ forall y, In y l -> fle y m = true.
Proof.
  destruct l as [|x t]; [easy|]. intros _ H. exists (fold_left (fun m y => if flt m y then y else m) t x). split; [reflexivity|].
  revert x H. induction t as [|y t IH]; intros x H.
  - cbn. split; [now left|]. intros y [<-|[]]. specialize (H x (or_introl eq_refl)). destruct x; try reflexivity; [discriminate|]. cbn. apply Qcleb_le. qlra.
  - cbn [fold_left].
    set (z := if flt x y then y else x).
    assert (Hx : isnan x = false) by (apply H; now left). assert (Hy : isnan y = false) by (apply H; right; now left).
    destruct (IH z) as [I M].
    { intros v [<-|Hv]; [unfold z; destruct (flt x y); assumption|]. apply H. now do 2 right. }
    split; [destruct I as [<-|I]; [unfold z; destruct (flt x y); [right; now left|now left]|now do 2 right]|].
    assert (Hxz : fle x z = true /\ fle y z = true).
    { unfold z. clear - Hx Hy. destruct (flt x y) eqn:E; split.
      - destruct x as [| |a|], y as [| |b|]; try discriminate; try reflexivity. cbn in *. apply Qcltb_lt in E. apply Qcleb_le. qlra.
      - destruct y as [| |b|]; try discriminate; try reflexivity. cbn. apply Qcleb_le. qlra.
      - destruct x as [| |a|]; try discriminate; try reflexivity. cbn. apply Qcleb_le. qlra.
      - destruct x as [| |a|], y as [| |b|]; try discriminate; try reflexivity. cbn in *. apply Qcleb_le.
        destruct (Qcltb_spec a b); [discriminate|qlra]. }
    pose proof (M z (or_introl eq_refl)) as Mz.
    assert (T : forall u v w, fle u v = true -> fle v w = true -> fle u w = true).
    { intros [| |a|] [| |b|] [| |c|]; cbn; try easy. rewrite !Qcleb_le. intros; qlra. }
    intros v [<-|[<-|Hv]]; [eapply T; [apply Hxz|exact Mz]|eapply T; [apply Hxz|exact Mz]|]. apply M. now right.
Qed.
