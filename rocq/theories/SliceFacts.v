(** Facts about even slices, columns and transposition, and the common
    "dimensions x slices" loop. *)
From Verif Require Import Np NpFacts Fl FlFacts DiagTypes DiagModel DiagSpec DiagProofs VecModel.
Open Scope Z_scope.

(** [l] is a chain of non-empty half-open intervals from [a] to [b]. *)
Fixpoint tiles (a b : Z) (l : list (Z * Z)) : Prop :=
  match l with
  | [] => a = b
  | (s, e) :: t => s = a /\ a < e /\ tiles e b t
  end.

Lemma tiles_le a b l : tiles a b l -> a <= b.
Proof. revert a; induction l as [|[s e] l IH]; cbn [tiles]; intros a H; [lia|]. destruct H as [_ [H1 H2]]. apply IH in H2. lia. Qed.

Lemma py_sub_app {A} (X : list A) a c b : 0 <= a <= c -> c <= b -> b <= zlen X ->
  py_sub (Some a) (Some c) X ++ py_sub (Some c) (Some b) X = py_sub (Some a) (Some b) X.
Proof.
  intros H1 H2 H3. destruct (py_sub_spec X a c ltac:(lia) ltac:(lia)) as [L1 N1].
  destruct (py_sub_spec X c b ltac:(lia) ltac:(lia)) as [L2 N2]. destruct (py_sub_spec X a b ltac:(lia) ltac:(lia)) as [L3 N3].
  apply Znth_ext; [rewrite zlen_app; lia|]. intros i Hi. rewrite zlen_app in Hi.
  rewrite N3 by lia. destruct (Z.lt_ge_cases i (c - a)).
  - rewrite Znth_app1 by lia. apply N1. lia.
  - rewrite Znth_app2 by lia. rewrite L1, N2 by lia. f_equal. lia.
Qed.
Lemma py_sub_all {A} (X : list A) : py_sub (Some 0) (Some (zlen X)) X = X.
Proof.
  pose proof (zlen_nonneg X). destruct (py_sub_spec X 0 (zlen X) ltac:(lia) ltac:(lia)) as [L N].
  apply Znth_ext; [lia|]. intros i Hi. apply N. lia.
Qed.
Lemma tiles_concat {A} (X : list A) l : forall a b, tiles a b l -> 0 <= a -> b <= zlen X ->
  concat (map (fun s => take_slice s X) l) = py_sub (Some a) (Some b) X.
Proof.
  induction l as [|[s e] l IH]; intros a b H Ha Hb; cbn [tiles map concat] in *.
  - subst. destruct (py_sub_spec X b b ltac:(lia) ltac:(lia)) as [L _]. destruct (py_sub (Some b) (Some b) X); [reflexivity|].
    rewrite zlen_cons in L. pose proof (zlen_nonneg l). lia.
  - destruct H as [-> [H1 H2]]. rewrite (IH e b H2) by lia. unfold take_slice. cbn [fst snd].
    apply tiles_le in H2. apply py_sub_app; lia.
Qed.
Lemma tiles_In a b l s : tiles a b l -> In s l -> a <= fst s < snd s /\ snd s <= b.
Proof.
  revert a. induction l as [|[x e] l IH]; intros a H Hs; cbn [tiles] in H; [destruct Hs|].
  destruct H as [-> [H1 H2]]. assert (L := tiles_le _ _ _ H2). destruct Hs as [<-|Hs]; cbn [fst snd]; [lia|].
  destruct (IH e H2 Hs). lia.
Qed.

Lemma even_slices_tiles_aux P n fuel : forall pack start,
  1 <= P -> 0 <= n -> Z.of_nat fuel = P - pack -> 0 <= pack ->
  tiles start (start + (P - pack) * (n / P) + Z.max 0 (n mod P - pack)) (even_slices_aux fuel n P pack start).
Proof.
  induction fuel as [|fuel IH]; intros pack start HP Hn Hf Hp; cbn [even_slices_aux].
  - assert (pack = P) by lia. subst. pose proof (Z.mod_pos_bound n P). cbn [tiles]. nia.
  - assert (Hq : 0 <= n / P) by (apply Z.div_pos; lia).
    pose proof (IH (pack + 1) (start + (n / P + (if pack <? n mod P then 1 else 0))) HP Hn ltac:(lia) ltac:(lia)) as I.
    pose proof (IH (pack + 1) start HP Hn ltac:(lia) ltac:(lia)) as I0.
    destruct (Z.ltb_spec pack (n mod P)).
    + destruct (Z.ltb_spec 0 (n / P + 1)); [|lia]. cbn [tiles]. split; [reflexivity|]. split; [lia|].
      replace (start + (P - pack) * (n / P) + Z.max 0 (n mod P - pack))
        with (start + (n / P + 1) + (P - (pack + 1)) * (n / P) + Z.max 0 (n mod P - (pack + 1))) by nia. exact I.
    + destruct (Z.ltb_spec 0 (n / P + 0)).
      * cbn [tiles]. split; [reflexivity|]. split; [lia|].
        replace (start + (P - pack) * (n / P) + Z.max 0 (n mod P - pack))
          with (start + (n / P + 0) + (P - (pack + 1)) * (n / P) + Z.max 0 (n mod P - (pack + 1))) by nia. exact I.
      * replace (start + (P - pack) * (n / P) + Z.max 0 (n mod P - pack))
          with (start + (P - (pack + 1)) * (n / P) + Z.max 0 (n mod P - (pack + 1))) by nia. exact I0.
Qed.
Lemma even_slices_tiles n P : 1 <= P -> 0 <= n -> tiles 0 n (gen_even_slices n P).
Proof.
  intros HP Hn. unfold gen_even_slices. pose proof (even_slices_tiles_aux P n (Z.to_nat P) 0 0 HP Hn ltac:(lia) ltac:(lia)) as H.
  pose proof (Z.mod_pos_bound n P ltac:(lia)). pose proof (Z.div_mod n P ltac:(lia)).
  replace (0 + (P - 0) * (n / P) + Z.max 0 (n mod P - 0)) with n in H by nia. exact H.
Qed.

Lemma even_slices_concat {A} (X : list A) P : 1 <= P ->
  concat (map (fun s => take_slice s X) (gen_even_slices (zlen X) P)) = X.
Proof.
  intros HP. pose proof (zlen_nonneg X). rewrite (tiles_concat X _ 0 (zlen X)); [apply py_sub_all|now apply even_slices_tiles|lia|lia].
Qed.
Lemma even_slices_nonempty {A} (X : list A) P s : 1 <= P -> In s (gen_even_slices (zlen X) P) -> take_slice s X <> [].
Proof.
  intros HP Hs. pose proof (zlen_nonneg X). destruct (tiles_In 0 (zlen X) _ s (even_slices_tiles (zlen X) P HP ltac:(lia)) Hs) as [H1 H2].
  intros E. destruct (py_sub_spec X (fst s) (snd s) ltac:(lia) ltac:(lia)) as [L _]. unfold take_slice in E. rewrite E, zlen_nil in L. lia.
Qed.
Lemma take_slice_incl {A} (X : list A) P s : 1 <= P -> In s (gen_even_slices (zlen X) P) -> incl (take_slice s X) X.
Proof.
  intros HP Hs x Hx. rewrite <- (even_slices_concat X P HP). apply in_concat. exists (take_slice s X). split; [|assumption].
  now apply (in_map (fun s => take_slice s X)).
Qed.
Lemma even_slices_ne {A} (X : list A) P : 1 <= P -> X <> [] -> gen_even_slices (zlen X) P <> [].
Proof. intros HP HX E. pose proof (even_slices_concat X P HP) as H. rewrite E in H. simpl in H. congruence. Qed.

(** columns and transposition *)
Lemma col_spec {A} (M : list (list A)) j n : (forall r, In r M -> zlen r = n) -> 0 <= j < n ->
  zlen (col j M) = zlen M /\
  forall i r v, Znth M i = Some r -> Znth r j = Some v -> Znth (col j M) i = Some v.
Proof.
  intros H Hj. induction M as [|r M IH].
  - split; [reflexivity|]. intros i r v Hi. apply Znth_In in Hi. destruct Hi.
  - destruct IH as [L N]; [intros; apply H; now right|].
    destruct (Znth_ex r j) as [v Hv]; [rewrite (H r (or_introl eq_refl)); lia|].
    assert (E : col j (r :: M) = v :: col j M) by (unfold col; cbn [flat_map]; rewrite Hv; reflexivity). rewrite E. split.
    + rewrite !zlen_cons. lia.
    + intros i r' v' Hi Hv'. destruct (Z.eq_dec i 0) as [->|].
      * rewrite Znth_0 in Hi. injection Hi as <-. rewrite Hv in Hv'. rewrite Znth_0. exact Hv'.
      * pose proof (Znth_Some_lt _ _ _ Hi). rewrite Znth_cons in Hi by lia. rewrite Znth_cons by lia. eauto.
Qed.
Lemma col_map {A B} (f : A -> list B) l j (g : A -> B) :
  (forall x, In x l -> Znth (f x) j = Some (g x)) -> col j (map f l) = map g l.
Proof.
  unfold col. induction l as [|x l IH]; intros H; [reflexivity|]. cbn [map flat_map]. rewrite (H x) by now left.
  cbn [app]. f_equal. apply IH. intros; apply H; now right.
Qed.
Lemma transposeZ_map_map {A B C} (f : A -> B -> C) (l : list A) (l' : list B) :
  transposeZ (zlen l') (map (fun a => map (f a) l') l) = map (fun b => map (fun a => f a b) l) l'.
Proof.
  pose proof (zlen_nonneg l'). unfold transposeZ. apply Znth_ext; [rewrite zlen_tabZ, zlen_map; lia|].
  intros i Hi. rewrite zlen_tabZ in Hi by lia. rewrite Znth_tabZ by lia. rewrite Znth_map.
  destruct (Znth_ex l' i Hi) as [b Hb]. rewrite Hb. cbn [option_map]. f_equal.
  apply col_map. intros a _. rewrite Znth_map, Hb. reflexivity.
Qed.

Lemma concat_map_flat {A B C} (f : A -> B -> list C) la lb :
  concat (flat_map (fun a => map (f a) lb) la) = concat (map (fun a => concat (map (f a) lb)) la).
Proof. induction la; [reflexivity|]. cbn [flat_map map concat]. now rewrite concat_app, IHla. Qed.

(** *** The common loop is the map over samples and dimensions *)
Lemma balanced_incl q X Y : balanced q X -> incl Y X -> balanced q Y.
Proof. intros [n H] I. exists n. intros; apply H, I; assumption. Qed.

Lemma vectorise_ok {V} (f : fl -> list (list qpt) -> res (list V)) (g : fl -> diagram -> V) X dims n_jobs :
  1 <= n_jobs -> X <> [] -> dims <> [] -> (forall q, In q dims -> balanced q X) ->
  (forall q xs, In q dims -> xs <> [] -> incl xs X ->
     f q (map (fun x => to_q (rows_of q x)) xs) = Ok (map (g q) xs)) ->
  vectorise f X dims n_jobs = Ok (map (fun x => map (fun q => g q x) dims) X).
Proof.
  intros HJ HX Hd HB Hf. unfold vectorise.
  set (S := gen_even_slices (zlen X) n_jobs).
  set (P := flat_map (fun dim => map (fun s => (dim, s)) S) dims).
  assert (EM : mapM (fun ds => do Xs <- subdiagrams (take_slice (snd ds) X) [fst ds]; f (fst ds) (map to_q Xs)) P
      = Ok (map (fun ds => map (g (fst ds)) (take_slice (snd ds) X)) P)).
  { apply mapM_Ok. intros [q s] Hin. cbn [fst snd]. apply in_flat_map in Hin. destruct Hin as [q' [Hq Hin]].
    apply in_map_iff in Hin. destruct Hin as [s' [E Hs]]. injection E as -> ->.
    rewrite subdiagrams_ok.
    - cbn [bind]. rewrite map_map. rewrite <- (Hf q (take_slice s X)); [|assumption|apply (even_slices_nonempty X n_jobs); assumption|apply (take_slice_incl X n_jobs); assumption].
      f_equal. apply map_ext. intros x. cbn [map concat]. now rewrite app_nil_r.
    - apply (even_slices_nonempty X n_jobs); assumption.
    - easy.
    - intros q' [<-|[]]. apply (balanced_incl q X); [auto|]. now apply (take_slice_incl X n_jobs). }
  rewrite EM. cbn [bind].
  assert (HP : P <> []).
  { unfold P. destruct dims as [|q dims]; [easy|]. cbn [flat_map]. pose proof (even_slices_ne X n_jobs HJ HX) as N. fold S in N.
    destruct S; [easy|]. discriminate. }
  assert (EC : concat (map (fun ds => map (g (fst ds)) (take_slice (snd ds) X)) P) = concat (map (fun q => map (g q) X) dims)).
  { unfold P. rewrite flat_map_concat_map, concat_map, map_map.
    rewrite <- flat_map_concat_map.
    erewrite flat_map_ext; [|intros q; rewrite map_map; cbn [fst snd]; reflexivity].
    rewrite concat_map_flat. f_equal. apply map_ext. intros q.
    transitivity (map (g q) (concat (map (fun s => take_slice s X) S))); [rewrite concat_map, map_map; reflexivity|].
    f_equal. now apply even_slices_concat. }
  destruct (map _ P) as [|bl bls] eqn:EB; [destruct P; [easy|discriminate]|]. rewrite <- EB in *.
  rewrite EC. rewrite np_reshape_concat.
  - cbn [bind]. f_equal. apply (transposeZ_map_map (fun q x => g q x)).
  - now rewrite zlen_map.
  - intros l Hl. apply in_map_iff in Hl. destruct Hl as [q [<- _]]. apply zlen_map.
  - apply zlen_nonneg.
Qed.
