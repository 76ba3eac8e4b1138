(** Theorems about the GUDHI interfaces of gtda/externals/python. *)
From Coq Require Import String.
From Verif Require Import Np NpFacts Fl ExtTypes ExtSpec ExtModel.
Open Scope Z_scope.

(** ** Cubical complexes *)

Lemma run_app O K (step : O -> K -> O * list event * res answer) o h1 h2 :
  run step o (h1 ++ h2) =
  (fst (run step (fst (run step o h1)) h2),
   (snd (run step o h1) ++ snd (run step (fst (run step o h1)) h2))%list).
Proof.
  revert o; induction h1 as [|c h1 IH]; intro o; cbn.
  - destruct (run step o h2); reflexivity.
  - destruct (step o c) as [[o' ev] r]. rewrite IH. destruct (run step o' h1) as [o'' l]. reflexivity.
Qed.

Lemma latest_app h c : latest_persistence (h ++ [c]) =
  match c with CPersistence f m => Some (f, m) | _ => latest_persistence h end.
Proof.
  induction h as [|d h IH]; cbn.
  - destruct c; reflexivity.
  - rewrite IH. destruct c; reflexivity.
Qed.

(** The attribute holding the computation, after any history of a defined
    complex. *)
Lemma cub_invariant D C P e (L : cubical_lib D C P) x h :
  fst (run (cub_step e L) (Cub (Some x) Null) h) =
  Cub (Some x) (match current_computation L x h with Some q => Ptr q | None => Null end).
Proof.
  induction h as [|c h IH] using rev_ind.
  - cbn. unfold current_computation. cbn. destruct (l_cohomology L x true); reflexivity.
  - rewrite run_app. cbn [fst run]. rewrite IH.
    unfold current_computation at 2. rewrite latest_app.
    destruct c; cbn; try reflexivity.
    + unfold cub_persistence; cbn. unfold current_computation.
      destruct (l_cohomology L x true) as [q|ex] eqn:E.
      * destruct (latest_persistence h) as [[f m]|]; cbn; rewrite ?E; cbn;
          destruct (l_compute L q _ _); reflexivity.
      * cbn. rewrite ?E. reflexivity.
    + unfold current_computation. destruct (l_cohomology L x true); [|reflexivity].
      destruct (latest_persistence h) as [[f m]|]; reflexivity.
Qed.

Lemma undefined_invariant D C P e (L : cubical_lib D C P) h :
  fst (run (cub_step e L) (Cub None Null) h) = Cub None Null.
Proof.
  induction h as [|c h IH] using rev_ind; [reflexivity|].
  rewrite run_app. cbn [fst run]. rewrite IH. destruct c; reflexivity.
Qed.

(** Construction.  A CubicalComplex is usable exactly when it is given dimensions
    and cells and no file, or an existing file and nothing else; in the other
    cases a message is printed and the object is left undefined. *)
Theorem cubical_construction : forall C P (L : cubical_lib (list Z * list fl) C P) isfile
  dims cells file,
  (forall d c, dims = Some d -> cells = Some c -> file = ""%string ->
     cubical_init L isfile dims cells file =
     ([], match l_cells L (d, c) with Ok x => Ok (Cub (Some x) Null) | Err e => Err e end)) /\
  (dims = None -> cells = None -> file <> ""%string -> isfile file = true ->
     cubical_init L isfile dims cells file =
     ([], match l_perseus L file with Ok x => Ok (Cub (Some x) Null) | Err e => Err e end)) /\
  ((forall x p, cubical_init L isfile dims cells file <> ([], Ok (Cub (Some x) p))) ->
   (forall e, cubical_init L isfile dims cells file <> ([], Err e)) ->
     exists text, cubical_init L isfile dims cells file = ([Printed text], Ok (Cub None Null))) /\
  ((exists text r, cubical_init L isfile dims cells file = ([Printed text], r)) <->
   ~ (dims <> None /\ cells <> None /\ file = ""%string) /\
   ~ (dims = None /\ cells = None /\ file <> ""%string /\ isfile file = true)).
Proof.
  intros C P L isfile dims cells file. unfold cubical_init.
  repeat split.
  - intros d c -> -> ->. cbn. destruct (l_cells L (d, c)); reflexivity.
  - intros -> -> F I. destruct (String.eqb_spec file ""); [contradiction|]. rewrite I.
    destruct (l_perseus L file); reflexivity.
  - intros H1 H2.
    destruct dims as [d|], cells as [c|], (file =? "")%string; try (eexists; reflexivity).
    + cbn in *. destruct (l_cells L (d, c)) as [x|ex]; cbn in *;
        [elim (H1 x Null) | elim (H2 ex)]; reflexivity.
    + destruct (isfile file); [|eexists; reflexivity].
      cbn in *. destruct (l_perseus L file) as [x|ex]; cbn in *;
        [elim (H1 x Null) | elim (H2 ex)]; reflexivity.
  - intros (A & B & ->). destruct dims, cells; try congruence. cbn in H.
    destruct H as (t & r & H). discriminate.
  - intros (-> & -> & F & I). destruct (String.eqb_spec file ""); [contradiction|].
    rewrite I in H. destruct H as (t & r & H). discriminate.
  - intros [H1 H2]. destruct dims as [d|], cells as [c|], (String.eqb_spec file "");
      try (eexists; eexists; reflexivity).
    + elim H1. repeat split; congruence.
    + destruct (isfile file) eqn:I; [|eexists; eexists; reflexivity].
      elim H2. repeat split; assumption.
Qed.

(** The same for PeriodicCubicalComplex, which needs the periodicities as well. *)
Theorem periodic_construction : forall C P (L : cubical_lib (list Z * list fl * list bool) C P)
  isfile dims cells per file,
  (forall d c p, dims = Some d -> cells = Some c -> per = Some p -> file = ""%string ->
     periodic_init L isfile dims cells per file =
     ([], match l_cells L (d, c, p) with Ok x => Ok (Cub (Some x) Null) | Err e => Err e end)) /\
  (dims = None -> cells = None -> per = None -> file <> ""%string -> isfile file = true ->
     periodic_init L isfile dims cells per file =
     ([], match l_perseus L file with Ok x => Ok (Cub (Some x) Null) | Err e => Err e end)) /\
  (~ (dims <> None /\ cells <> None /\ per <> None /\ file = ""%string) ->
   ~ (dims = None /\ cells = None /\ per = None /\ file <> ""%string /\ isfile file = true) ->
     exists text, periodic_init L isfile dims cells per file = ([Printed text], Ok (Cub None Null))).
Proof.
  intros C P L isfile dims cells per file. unfold periodic_init.
  repeat split.
  - intros d c p -> -> -> ->. cbn. destruct (l_cells L (d, c, p)); reflexivity.
  - intros -> -> -> F I. destruct (String.eqb_spec file ""); [contradiction|]. rewrite I.
    destruct (l_perseus L file); reflexivity.
  - intros H1 H2. destruct dims as [d|], cells as [c|], per as [p|], (String.eqb_spec file "");
      try (eexists; reflexivity).
    + elim H1. repeat split; congruence.
    + destruct (isfile file) eqn:I; [|eexists; reflexivity].
      elim H2. repeat split; assumption.
Qed.

(** Whatever was called before, the answers of a defined complex are determined by
    the complex and by the arguments of the most recent call of persistence:
    earlier computations leave no trace, and questions change nothing. *)
Theorem cubical_history : forall D C P e (L : cubical_lib D C P) x h,
  let o := fst (run (cub_step e L) (Cub (Some x) Null) h) in
  let answered c ev r := exists o', cub_step e L o c = (o', ev, r) in
  answered CIsDefined [] (Ok (ABool true)) /\
  answered CNumSimplices [] (Ok (AInt (l_num_simplices L x))) /\
  answered CDimension [] (Ok (AInt (l_dimension L x))) /\
  (forall f m, answered (CPersistence f m) []
     match l_cohomology L x true with
     | Err ex => Err ex
     | Ok q => match l_compute L q f m with
               | (_, Some ex) => Err ex
               | (q, None) => Ok (ADiagram (l_get L q))
               end
     end) /\
  (forall q, current_computation L x h = Some q ->
     forall c, match c with
               | CIsPersistenceDefined | CBetti | CPersistentBetti _ _ | CIntervals _ => True
               | _ => False
               end ->
     exists a, answered c [] (Ok a) /\ computed_answer L q c a) /\
  (current_computation L x h = None ->
     answered CIsPersistenceDefined [] (Ok (ABool false)) /\
     answered CBetti [] (Ok (AInts [])) /\
     (forall u v, answered (CPersistentBetti u v) [] (Ok (AInts []))) /\
     (forall d, exists text, answered (CIntervals d) [Printed text] (Ok (AArray e)))).
Proof.
  intros D C P e L x h o answered. subst o answered. rewrite cub_invariant.
  cbn beta. repeat split; try (eexists; reflexivity).
  - intros f m. cbn. unfold cub_persistence; cbn. unfold current_computation.
    destruct (l_cohomology L x true) as [q|ex] eqn:E.
    + destruct (latest_persistence h) as [[f' m']|]; cbn; rewrite ?E; cbn;
        destruct (l_compute L q f m) as [q' [ex|]]; eexists; reflexivity.
    + cbn. rewrite ?E. eexists; reflexivity.
  - intros q E c Hc. rewrite E. destruct c; try contradiction; cbn.
    + eexists; split; [eexists; reflexivity|reflexivity].
    + eexists; split; [eexists; reflexivity|reflexivity].
    + eexists; split; [eexists; reflexivity|reflexivity].
    + eexists; split; [eexists; reflexivity|]. eexists; split; [reflexivity|].
      destruct (l_intervals L q dimension) as [|i l] eqn:Ei; cbn; split; try reflexivity.
      congruence.
  - rewrite H. eexists; reflexivity.
  - rewrite H. eexists; reflexivity.
  - rewrite H. intros u v. eexists; reflexivity.
  - rewrite H. intros d. eexists. eexists; reflexivity.
Qed.

(** Destroying a cubical complex never fails, whatever was called. *)
Theorem cubical_delete : forall D C P e (L : cubical_lib D C P) x h,
  cub_del (fst (run (cub_step e L) (Cub (Some x) Null) h)) = Ok tt /\
  cub_del (fst (run (cub_step e L) (Cub None Null) h)) = Ok tt.
Proof.
  intros. rewrite cub_invariant, undefined_invariant. split; [|reflexivity].
  destruct (current_computation L x h); reflexivity.
Qed.

(** An undefined complex stays undefined: its sizes raise AttributeError, and
    persistence and the questions about it answer as for an empty diagram. *)
Theorem cubical_undefined : forall D C P e (L : cubical_lib D C P) h c,
  exists text, cub_step e L (fst (run (cub_step e L) (Cub None Null) h)) c =
  (Cub None Null,
   match c with CIntervals _ => [Printed text] | _ => [] end,
   match c with
   | CIsDefined | CIsPersistenceDefined => Ok (ABool false)
   | CNumSimplices | CDimension => Err AttributeError
   | CPersistence _ _ => Ok (ADiagram [])
   | CBetti | CPersistentBetti _ _ => Ok (AInts [])
   | CIntervals _ => Ok (AArray e)
   end).
Proof. intros. rewrite undefined_invariant. eexists. destruct c; reflexivity. Qed.

(** The arrays of intervals are documented as two-dimensional.  They are when the
    dimension has an interval; without any, the array has the single axis (0,), and
    before a computation it has shape (1, 0) in CubicalComplex and (0,) in
    PeriodicCubicalComplex. *)
Theorem intervals_array_refuted :
  (forall l, l <> [] -> rows_of l (np_array_of_pairs l)) /\
  (nd_shape (np_array_of_pairs []) = [0] /\ forall l, ~ rows_of l (np_array_of_pairs [])) /\
  (forall C P (L : cubical_lib (list Z * list fl) C P) x d, exists ev a,
     cubical_step L (Cub (Some x) Null) (CIntervals d) = (Cub (Some x) Null, ev, Ok (AArray a)) /\
     nd_shape a = [1; 0]) /\
  (forall C P (L : cubical_lib (list Z * list fl * list bool) C P) x d, exists ev a,
     periodic_step L (Cub (Some x) Null) (CIntervals d) = (Cub (Some x) Null, ev, Ok (AArray a)) /\
     nd_shape a = [0]).
Proof.
  repeat split.
  - destruct l; [congruence|reflexivity].
  - destruct l; [congruence|reflexivity].
  - intros l [H _]. discriminate.
  - intros. eexists. eexists. split; reflexivity.
  - intros. eexists. eexists. split; reflexivity.
Qed.

(** ** SimplexTree *)

Lemma copy_simplices_id l : copy_simplices l = l.
Proof.
  unfold copy_simplices.
  assert (H : forall acc, fold_left (fun ct fc => (ct ++ [(map (fun vertex : Z => vertex) (fst fc), snd fc)])%list) l acc
                          = (acc ++ l)%list :> list (list Z * fl)).
  { induction l as [|[v x] l IH]; intro acc; cbn.
    - now rewrite app_nil_r.
    - rewrite IH, map_id, <- app_assoc. reflexivity. }
  apply H.
Qed.

(** The methods about the tree itself call the bound function of the same meaning
    on the current tree and return its value, whether or not persistence was
    computed, and do not touch the computation.  find, insert, get_star and
    get_cofaces take any iterable of vertices; filtration, assign_filtration and
    remove_maximal_simplex only sequences. *)
Theorem simplex_tree_forwards : forall V T P (L : tree_lib V T P) o c t r,
  documented L c (st_tree o) = Some (t, r) ->
  tree_step L o c = (STree t (st_pcoh o), [], r).
Proof.
  intros V T P L [t0 pc] c t r H. cbn in H.
  assert (Hc : forall x : res (list (list Z * fl)),
             (do a <- x; Ok (ASimplices (copy_simplices a))) =
             match x with Ok a => Ok (ASimplices a) | Err e => Err e end)
    by (intros [a|e]; cbn; now rewrite ?copy_simplices_id).
  destruct c; cbn in H; try discriminate; try (injection H as <- <-; reflexivity);
    unfold given, returning, returning_none in H;
    unfold tree_step, silent, on_tree, t_none; cbn.
  all: try (destruct simplex as [l|l|]; cbn in *; try (injection H as <- <-; reflexivity)).
  all: injection H as <- <-.
  all: try (match goal with |- context [t_simplices ?L0 ?a ?b] => destruct (t_simplices L0 a b) as [t1 r1] end;
            cbn; rewrite Hc; reflexivity).
  all: match goal with
       | |- context [t_void ?L0 ?a ?b] => destruct (t_void L0 a b) as [t1 [e1|]]
       | |- context [t_bool ?L0 ?a ?b] => destruct (t_bool L0 a b) as [t1 [a1|e1]]
       | |- context [t_int ?L0 ?a ?b] => destruct (t_int L0 a b) as [t1 [a1|e1]]
       | |- context [t_float ?L0 ?a ?b] => destruct (t_float L0 a b) as [t1 [a1|e1]]
       end; reflexivity.
Qed.

Lemma question_keeps V T P (L : tree_lib V T P) o c :
  is_question c = true -> fst (fst (tree_step L o c)) = o.
Proof.
  destruct o as [t [| |q]], c; cbn; try discriminate; try reflexivity.
  intros _. destruct (negb _); reflexivity.
Qed.

Lemma documented_or V T P (L : tree_lib V T P) c t :
  (exists t' r, documented L c t = Some (t', r)) \/ is_question c = true \/ is_persistence c = true.
Proof.
  destruct c; cbn; auto; left;
    match goal with |- context [Some ?x] => destruct x as [a b] end; eauto.
Qed.

Lemma pcoh_step V T P (L : tree_lib V T P) o c :
  is_persistence c = false -> st_pcoh (fst (fst (tree_step L o c))) = st_pcoh o.
Proof.
  intro N. destruct (documented_or V T P L c (st_tree o)) as [(t & r & D)|[Q|Q]].
  - rewrite (simplex_tree_forwards _ _ _ _ _ _ _ _ D). reflexivity.
  - now rewrite question_keeps.
  - congruence.
Qed.

Lemma pcoh_run V T P (L : tree_lib V T P) o h :
  Forall (fun c => is_persistence c = false) h ->
  st_pcoh (fst (run (tree_step L) o h)) = st_pcoh o.
Proof.
  intro F. revert o. induction F as [|c h N F IH]; intro o; [reflexivity|].
  cbn. destruct (tree_step L o c) as [[o' ev] r] eqn:E.
  specialize (IH o'). destruct (run (tree_step L) o' h) as [o'' l]. cbn in *.
  rewrite IH. rewrite <- (pcoh_step V T P L o c N), E. reflexivity.
Qed.

(** Questions leave the object as it is: dropping them from a history changes
    neither the object nor the answers to the other calls. *)
Theorem questions_are_pure : forall V T P (L : tree_lib V T P) h o,
  let kept := filter (fun c => negb (is_question c)) h in
  fst (run (tree_step L) o kept) = fst (run (tree_step L) o h) /\
  snd (run (tree_step L) o kept) =
  map snd (filter (fun cr => negb (is_question (fst cr))) (combine h (snd (run (tree_step L) o h)))).
Proof.
  intros V T P L h. induction h as [|c h IH]; intro o; [split; reflexivity|].
  cbn zeta in *. cbn. destruct (tree_step L o c) as [[o' ev] r] eqn:E.
  destruct (IH o') as [I1 I2].
  destruct (is_question c) eqn:Q; cbn.
  - assert (o' = o) as -> by (pose proof (question_keeps V T P L o c Q) as K; rewrite E in K; exact K).
    destruct (run (tree_step L) o h) as [o'' l]. cbn in *. rewrite Q. cbn. split; assumption.
  - rewrite E. destruct (run (tree_step L) o' h) as [o'' l], (run (tree_step L) o' (filter _ h)) as [o3 l3].
    cbn in *. rewrite Q. cbn. split; [assumption|]. now rewrite I2.
Qed.

(** Before persistence is called, whatever was done to the tree, the questions
    answer with empty lists and print that persistence has to be launched. *)
Theorem not_computed : forall V T P (L : tree_lib V T P) h,
  Forall (fun c => is_persistence c = false) h ->
  let o := fst (run (tree_step L) (simplex_tree_init L) h) in
  tree_step L o IsPersistenceDefined = (o, [], Ok (ABool false)) /\
  (exists text, tree_step L o Betti = (o, [Printed text], Ok (AInts []))) /\
  (forall a b, exists text, tree_step L o (PersistentBetti a b) = (o, [Printed text], Ok (AInts []))) /\
  (forall d, exists text, tree_step L o (Intervals d) =
     (o, [Printed text], Ok (AArray (NdArray [0] [])))) /\
  (exists text, tree_step L o Pairs = (o, [Printed text], Ok (ASimplexPairs []))) /\
  (forall file, exists text, tree_step L o (WriteDiagram file) = (o, [Printed text], Ok ANone)) /\
  tree_del o = Ok tt.
Proof.
  intros V T P L h F o.
  assert (N : st_pcoh o = Null) by (unfold o; rewrite pcoh_run by exact F; reflexivity).
  clearbody o. destruct o as [t pc]. cbn in N. subst pc. cbn.
  repeat split; intros; try (eexists; reflexivity).
Qed.

(** A call of persistence computes from the current tree and its arguments only;
    until the next call, whatever is done to the tree, the questions are answered
    from that computation. *)
Theorem computed_from_latest : forall V T P (L : tree_lib V T P) o f m v h q0 t1 q raised,
  tree_step L o IsPersistenceDefined <> (o, [], Err AttributeError) ->
  p_new L (st_tree o) v = Ok q0 ->
  p_compute L (st_tree o) q0 f m = (t1, q, raised) ->
  Forall (fun c => is_persistence c = false) h ->
  let o1 := fst (fst (tree_step L o (Persistence f m v))) in
  let o2 := fst (run (tree_step L) o1 h) in
  snd (tree_step L o (Persistence f m v)) =
    match raised with Some e => Err e | None => Ok (ADiagram (p_get L t1 q)) end /\
  st_tree o1 = t1 /\
  tree_step L o2 IsPersistenceDefined = (o2, [], Ok (ABool true)) /\
  tree_step L o2 Betti = (o2, [], Ok (AInts (p_betti L (st_tree o2) q))) /\
  (forall a b, tree_step L o2 (PersistentBetti a b) =
     (o2, [], Ok (AInts (p_persistent_betti L (st_tree o2) q a b)))) /\
  (forall d, exists a, tree_step L o2 (Intervals d) = (o2, [], Ok (AArray a)) /\
     nd_entries a = concat (map (fun p => [fst p; snd p]) (p_intervals L (st_tree o2) q d)) /\
     (p_intervals L (st_tree o2) q d <> [] ->
      nd_shape a = [zlen (p_intervals L (st_tree o2) q d); 2])) /\
  tree_step L o2 Pairs = (o2, [], Ok (ASimplexPairs (p_pairs L (st_tree o2) q))) /\
  (forall file, file <> ""%string -> tree_step L o2 (WriteDiagram file) =
     (o2, [Wrote file (p_diagram_file L (st_tree o2) q)], Ok ANone)) /\
  (exists text, tree_step L o2 (WriteDiagram "") = (o2, [Printed text], Ok ANone)).
Proof.
  intros V T P L o f m v h q0 t1 q raised ND HN HC F o1 o2.
  assert (E : tree_step L o (Persistence f m v) =
              (STree t1 (Ptr q), [], match raised with Some e => Err e | None => Ok (ADiagram (p_get L t1 q)) end)).
  { destruct o as [t pc]. cbn in *. unfold tree_persistence, silent; cbn.
    destruct pc as [| |p]; cbn in *; [elim ND; reflexivity| |];
      rewrite HN, HC; cbn; destruct raised; reflexivity. }
  subst o1 o2. rewrite E. cbn [fst snd st_tree].
  assert (K := pcoh_run V T P L (STree t1 (Ptr q)) h F). cbn in K.
  destruct (fst (run (tree_step L) (STree t1 (Ptr q)) h)) as [t2 pc]. cbn in K. subst pc. cbn.
  repeat split; intros; try reflexivity.
  - eexists. split; [reflexivity|].
    destruct (p_intervals L t2 q d); cbn; split; try reflexivity; congruence.
  - destruct (String.eqb_spec file ""); [contradiction|]. reflexivity.
  - eexists. reflexivity.
Qed.

(** A computation that cannot be started: persistence_dim_max is rejected.  If it
    is the first one, the object is as before; otherwise the object loses its
    computation. *)
Lemma rejected V T P (L : tree_lib V T P) o f m v ex :
  p_new L (st_tree o) v = Err ex -> st_pcoh o <> Deleted ->
  tree_step L o (Persistence f m v) =
  (STree (st_tree o) (match st_pcoh o with Ptr _ => Deleted | x => x end), [], Err ex).
Proof.
  intros HN ND. destruct o as [t [| |q]]; cbn in *; unfold tree_persistence, silent; cbn;
    try congruence; rewrite HN; reflexivity.
Qed.

Lemma deleted_run V T P (L : tree_lib V T P) o h :
  st_pcoh o = Deleted -> st_pcoh (fst (run (tree_step L) o h)) = Deleted.
Proof.
  revert o; induction h as [|c h IH]; intros o D; [exact D|].
  cbn. destruct (tree_step L o c) as [[o' ev] r] eqn:E.
  assert (D' : st_pcoh o' = Deleted).
  { destruct (is_persistence c) eqn:Pc.
    - destruct c; try discriminate. cbn in E. unfold tree_persistence, silent in E.
      rewrite D in E. cbn in E. injection E as <- _ _. exact D.
    - pose proof (pcoh_step V T P L o c Pc) as K. rewrite E in K. cbn in K. congruence. }
  specialize (IH o' D'). destruct (run (tree_step L) o' h). exact IH.
Qed.

(** Finding: when a second computation cannot be started, the object is left
    without the attribute of its computation for ever: from then on every call of
    persistence and every question raises AttributeError, whatever its arguments
    and whatever is called in between; only the methods about the tree still
    work. *)
Theorem failed_recomputation_refuted : forall V T P (L : tree_lib V T P) o f m v ex h,
  tree_step L o IsPersistenceDefined = (o, [], Ok (ABool true)) ->
  p_new L (st_tree o) v = Err ex ->
  snd (tree_step L o (Persistence f m v)) = Err ex /\
  let o2 := fst (run (tree_step L) (fst (fst (tree_step L o (Persistence f m v)))) h) in
  (forall c, is_persistence c = true \/ is_question c = true ->
     tree_step L o2 c = (o2, [], Err AttributeError)) /\
  (forall c t r, documented L c (st_tree o2) = Some (t, r) ->
     exists o3, tree_step L o2 c = (o3, [], r) /\ st_tree o3 = t) /\
  tree_del o2 = Err AttributeError.
Proof.
  intros V T P L o f m v ex h HD HN.
  destruct o as [t pc]. cbn in HD. destruct pc as [| |q]; try discriminate.
  rewrite (rejected V T P L (STree t (Ptr q)) f m v ex HN) by discriminate. cbn [fst snd st_tree st_pcoh].
  split; [reflexivity|].
  set (o2 := fst (run (tree_step L) (STree t Deleted) h)).
  assert (D : st_pcoh o2 = Deleted) by (unfold o2; apply deleted_run; reflexivity).
  clearbody o2.
  repeat split.
  - intros c [Hc|Hc]; destruct o2 as [t2 pc]; cbn in D; subst pc; destruct c; try discriminate;
      reflexivity.
  - intros c t' r H. rewrite (simplex_tree_forwards _ _ _ _ _ _ _ _ H). eexists. split; reflexivity.
  - unfold tree_del. rewrite D. reflexivity.
Qed.

(** ... and this is the only way to lose it: the object is in that state after a
    history exactly when, at some point, persistence had been computed and a call
    of persistence could not be started. *)
Theorem lost_computation_iff : forall V T P (L : tree_lib V T P) h,
  let after h := fst (run (tree_step L) (simplex_tree_init L) h) in
  snd (tree_step L (after h) IsPersistenceDefined) = Err AttributeError <->
  exists h1 f m v h2 ex, h = (h1 ++ Persistence f m v :: h2)%list /\
    snd (tree_step L (after h1) IsPersistenceDefined) = Ok (ABool true) /\
    p_new L (st_tree (after h1)) v = Err ex.
Proof.
  intros V T P L h after.
  assert (Q : forall o : stree T P,
             snd (tree_step L o IsPersistenceDefined) = Err AttributeError <-> st_pcoh o = Deleted).
  { intros [t [| |q]]; cbn; split; congruence. }
  rewrite Q. split.
  - induction h as [|c h IH] using rev_ind; [discriminate|].
    intro D. unfold after in D. rewrite run_app in D. cbn [fst] in D. fold (after h) in D.
    cbn in D. destruct (tree_step L (after h) c) as [[o' ev] r] eqn:E. cbn in D.
    destruct (is_persistence c) eqn:Pc.
    + destruct c; try discriminate.
      destruct (st_pcoh (after h)) as [| |q] eqn:S.
      * destruct (IH eq_refl) as (h1 & f & m & v & h2 & ex & -> & H1 & H2).
        exists h1, f, m, v, (h2 ++ [Persistence field min_persistence persistence_dim_max])%list, ex.
        rewrite <- app_assoc. auto.
      * cbn in E. unfold tree_persistence, silent in E. rewrite S in E. cbn in E.
        destruct (p_new L (st_tree (after h)) persistence_dim_max) as [q0|ex].
        -- destruct (p_compute L _ q0 _ _) as [[t1 q1] ra]. injection E as <- _ _. discriminate.
        -- injection E as <- _ _. discriminate.
      * cbn in E. unfold tree_persistence, silent in E. rewrite S in E. cbn in E.
        destruct (p_new L (st_tree (after h)) persistence_dim_max) as [q0|ex] eqn:N.
        -- destruct (p_compute L _ q0 _ _) as [[t1 q1] ra]. injection E as <- _ _. discriminate.
        -- exists h, field, min_persistence, persistence_dim_max, [], ex.
           repeat split; [|exact N]. cbn. rewrite S. reflexivity.
    + pose proof (pcoh_step V T P L (after h) c Pc) as K. rewrite E in K. cbn in K.
      rewrite D in K. destruct (IH (eq_sym K)) as (h1 & f & m & v & h2 & ex & -> & H1 & H2).
      exists h1, f, m, v, (h2 ++ [c])%list, ex. rewrite <- app_assoc. auto.
  - intros (h1 & f & m & v & h2 & ex & -> & H1 & H2). unfold after.
    rewrite run_app. cbn [fst]. fold (after h1). cbn [run].
    destruct (tree_step L (after h1) (Persistence f m v)) as [[o' ev] r] eqn:E.
    assert (Dd : st_pcoh o' = Deleted).
    { destruct (st_pcoh (after h1)) eqn:S; cbn in H1; rewrite S in H1; try discriminate.
      rewrite (rejected V T P L _ f m v ex H2) in E by congruence. rewrite S in E.
      injection E as <- _ _. reflexivity. }
    pose proof (deleted_run V T P L o' h2 Dd) as K.
    destruct (run (tree_step L) o' h2). exact K.
Qed.

(** ** Complexes creating simplex trees *)

(** A distance matrix takes precedence over points, and without either the complex
    is that of no points. *)
Theorem rips_sources : forall X T R (L : rips_lib X T R) none points matrix len sparse,
  (forall M, matrix = Some M ->
     rips_init L none points matrix len = r_init_matrix L (r_new L) M len /\
     sparse_rips_init L none points matrix len sparse = r_init_matrix_sparse L (r_new L) M len sparse) /\
  (forall p, matrix = None -> points = Some p ->
     rips_init L none points matrix len = r_init_points L (r_new L) p len /\
     sparse_rips_init L none points matrix len sparse = r_init_points_sparse L (r_new L) p len sparse) /\
  (matrix = None -> points = None ->
     rips_init L none points matrix len = r_init_points L (r_new L) none len /\
     sparse_rips_init L none points matrix len sparse = r_init_points_sparse L (r_new L) none len sparse).
Proof. repeat split; intros; subst; reflexivity. Qed.

(** create_simplex_tree: a new tree filled by the library from the empty one, on
    which persistence is not computed yet. *)
Theorem created_tree : forall V T P (L : tree_lib V T P) create dim,
  match create (t_empty L) dim with
  | Ok t => exists o, create_simplex_tree L create dim = Ok o /\ st_tree o = t /\
              tree_step L o IsPersistenceDefined = (o, [], Ok (ABool false))
  | Err e => create_simplex_tree L create dim = Err e
  end.
Proof.
  intros. unfold create_simplex_tree. cbn. destruct (create (t_empty L) dim); cbn; [|reflexivity].
  eexists. repeat split; reflexivity.
Qed.

(** Witness complexes: -1, the default, is no limit of dimension, other negative
    limits are rejected, and a complex made without a table can only fail. *)
Theorem witness_tree : forall V T P Tab W (L : tree_lib V T P) (new : Tab -> res W) unlimited limited
  alpha dim,
  (exists w, witness_init new None = Ok w /\
     witness_create L unlimited limited w alpha dim = Err AttributeError) /\
  forall tab w, witness_init new (Some tab) = Ok w ->
  exists w0, new tab = Ok w0 /\
  witness_create L unlimited limited w alpha dim =
  match (if dim =? -1 then unlimited w0 (t_empty L) alpha
         else if 0 <=? dim then limited w0 (t_empty L) alpha dim else Err TypeError) with
  | Ok t => Ok (STree t Null)
  | Err e => Err e
  end.
Proof.
  intros. split.
  - exists None. split; [reflexivity|]. unfold witness_create. destruct (dim =? -1); reflexivity.
  - intros tab w H. cbn in H. destruct (new tab) as [w0|] eqn:E; [|discriminate].
    cbn in H. injection H as <-. exists w0. split; [reflexivity|].
    unfold witness_create. cbn. destruct (dim =? -1) eqn:D; cbn.
    + destruct (unlimited w0 (t_empty L) alpha); reflexivity.
    + rewrite Z.leb_antisym. destruct (dim <? 0); cbn; [reflexivity|].
      destruct (limited w0 (t_empty L) alpha dim); reflexivity.
Qed.

(** ** The homology transformers *)

(** What SparseRipsPersistence, EuclideanCechPersistence and CubicalPersistence
    receive for a sample: the diagram computed by the library, over the requested
    field and keeping every interval of positive length, on the complex of the
    sample up to one dimension above the largest one asked for. *)
Theorem sample_diagrams : forall V X T P R Rc C Q C' Q' (L : tree_lib V T P) (LR : rips_lib X T R)
  cech cech_create (Lc : cubical_lib (list Z * list fl) C Q)
  (Lp : cubical_lib (list Z * list fl * list bool) C' Q') isfile no none coeff thr eps top x d,
  let tree_diagram t := match p_new L t no with
                        | Err e => Err e
                        | Ok q => match p_compute L t q coeff (Fin 0) with
                                  | (_, _, Some e) => Err e
                                  | (t, q, None) => Ok (p_get L t q)
                                  end
                        end in
  (sparse_rips_diagram L LR no none coeff thr eps top x = Ok d <->
   exists r t, r_init_matrix_sparse LR (r_new LR) x thr eps = Ok r /\
     r_create LR r (t_empty L) (top + 1) = Ok t /\ tree_diagram t = Ok d) /\
  (cech_diagram L (cech : X -> fl -> res Rc) cech_create no coeff thr top x = Ok d <->
   exists r t, cech x thr = Ok r /\ cech_create r (t_empty L) (top + 1) = Ok t /\
     tree_diagram t = Ok d) /\
  (forall shape cells,
   (cubical_diagram Lc Lp isfile coeff shape cells None = Ok d <->
    exists x q q', l_cells Lc (shape, cells) = Ok x /\ l_cohomology Lc x true = Ok q /\
      l_compute Lc q coeff (Fin 0) = (q', None) /\ d = l_get Lc q') /\
   forall per,
   (cubical_diagram Lc Lp isfile coeff shape cells (Some per) = Ok d <->
    exists x q q', l_cells Lp (shape, cells, per) = Ok x /\ l_cohomology Lp x true = Ok q /\
      l_compute Lp q coeff (Fin 0) = (q', None) /\ d = l_get Lp q')).
Proof.
  intros. subst tree_diagram. cbn beta. repeat split.
  - unfold sparse_rips_diagram, create_simplex_tree, sparse_rips_init. cbn.
    intro H. destruct (r_init_matrix_sparse LR (r_new LR) x thr eps) as [r|]; [|discriminate].
    cbn in H. destruct (r_create LR r (t_empty L) (top + 1)) as [t|] eqn:E; [|discriminate].
    exists r, t. repeat split; auto. cbn in H. unfold tree_persistence in H. cbn in H.
    destruct (p_new L t no) as [q|]; [|discriminate].
    destruct (p_compute L t q coeff (Fin 0)) as [[t' q'] [e|]]; [discriminate|exact H].
  - intros (r & t & H1 & H2 & H3). unfold sparse_rips_diagram, create_simplex_tree, sparse_rips_init.
    cbn. rewrite H1. cbn. rewrite H2. cbn. unfold tree_persistence. cbn.
    destruct (p_new L t no) as [q|]; [|discriminate].
    destruct (p_compute L t q coeff (Fin 0)) as [[t' q'] [e|]]; [discriminate|exact H3].
  - unfold cech_diagram, create_simplex_tree. intro H.
    destruct (cech x thr) as [r|]; [|discriminate].
    cbn in H. destruct (cech_create r (t_empty L) (top + 1)) as [t|] eqn:E; [|discriminate].
    exists r, t. repeat split; auto. cbn in H. unfold tree_persistence in H. cbn in H.
    destruct (p_new L t no) as [q|]; [|discriminate].
    destruct (p_compute L t q coeff (Fin 0)) as [[t' q'] [e|]]; [discriminate|exact H].
  - intros (r & t & H1 & H2 & H3). unfold cech_diagram, create_simplex_tree.
    cbn. rewrite H1. cbn. rewrite H2. cbn. unfold tree_persistence. cbn.
    destruct (p_new L t no) as [q|]; [|discriminate].
    destruct (p_compute L t q coeff (Fin 0)) as [[t' q'] [e|]]; [discriminate|exact H3].
  - unfold cubical_diagram. cbn. intro H. destruct (l_cells Lc (shape, cells)) as [y|]; [|discriminate].
    cbn in H. unfold cub_persistence in H. cbn in H.
    destruct (l_cohomology Lc y true) as [q|] eqn:E; [|discriminate]. cbn in H.
    destruct (l_compute Lc q coeff (Fin 0)) as [q' [e|]] eqn:E2; [discriminate|].
    injection H as <-. exists y, q, q'. auto.
  - intros (y & q & q' & H1 & H2 & H3 & ->). unfold cubical_diagram. cbn. rewrite H1. cbn.
    unfold cub_persistence. cbn. rewrite H2. cbn. rewrite H3. reflexivity.
  - unfold cubical_diagram. cbn. intro H. destruct (l_cells Lp (shape, cells, per)) as [y|]; [|discriminate].
    cbn in H. unfold cub_persistence in H. cbn in H.
    destruct (l_cohomology Lp y true) as [q|] eqn:E; [|discriminate]. cbn in H.
    destruct (l_compute Lp q coeff (Fin 0)) as [q' [e|]] eqn:E2; [discriminate|].
    injection H as <-. exists y, q, q'. auto.
  - intros (y & q & q' & H1 & H2 & H3 & ->). unfold cubical_diagram. cbn. rewrite H1. cbn.
    unfold cub_persistence. cbn. rewrite H2. cbn. rewrite H3. reflexivity.
Qed.

(** ** Examples *)

(** A toy library: a tree is the list of its inserted simplices, a computation
    remembers how many there were and its arguments; persistence_dim_max must be a
    Boolean.  A first computation is stored; inserting a simplex afterwards does
    not change its answers; a second one with a bad argument loses it. *)
Definition toy : tree_lib (option bool) (list (list Z * fl)) (Z * Z) :=
  TreeLib [] (fun _ t => (t, None))
    (fun c t => match c with
                | InsertSimplexAndSubfaces s x => ((t ++ [(s, x)])%list, Ok true)
                | FindSimplex s => (t, Ok (existsb (fun y => zlen (fst y) =? zlen s) t))
                | _ => (t, Ok false)
                end)
    (fun _ t => (t, Ok (zlen t))) (fun _ t => (t, Ok PInf)) (fun _ t => (t, Ok t))
    (fun t v => match v with Some _ => Ok (zlen t, 0) | None => Err TypeError end)
    (fun t q f _ => (t, (fst q, f), None))
    (fun _ q => [(0, (Fin 0, Fin (qz (fst q))))]) (fun _ q => [fst q; snd q])
    (fun _ _ _ _ => []) (fun _ q d => if d =? 0 then [(Fin 0, Fin (qz (fst q)))] else [])
    (fun _ _ => []) (fun _ _ => "0 0 1"%string).
Definition toy_history : list (tree_call (option bool)) :=
  [Betti; Insert (Iterable [0; 1]) (Fin 0); Filtration (Iterable [0; 1]);
   Persistence 2 (Fin 0) None; Persistence 2 (Fin 0) (Some false); Betti;
   Insert (Sequence [2]) (Fin 0); NSimplices; Betti; Persistence 3 (Fin 0) (Some true); Betti;
   Intervals 0; Intervals 1; WriteDiagram "d"; Persistence 3 (Fin 0) None; Betti;
   Persistence 3 (Fin 0) (Some true); NSimplices].
Example toy_run : map snd (snd (run (tree_step toy) (simplex_tree_init toy) toy_history)) =
  [Ok (AInts []); Ok (ABool true); Err TypeError; Err TypeError;
   Ok (ADiagram [(0, (Fin 0, Fin (qz 1)))]); Ok (AInts [1; 2]); Ok (ABool true); Ok (AInt 2);
   Ok (AInts [1; 2]); Ok (ADiagram [(0, (Fin 0, Fin (qz 2)))]); Ok (AInts [2; 3]);
   Ok (AArray (NdArray [1; 2] [Fin 0; Fin (qz 2)])); Ok (AArray (NdArray [0] [])); Ok ANone;
   Err TypeError; Err AttributeError; Err AttributeError; Ok (AInt 2)].
Proof. reflexivity. Qed.

Definition toy_cubical : cubical_lib (list Z * list fl) Z (Z * Z) :=
  CubicalLib (fun d => Ok (zlen (snd d))) (fun _ => Err RuntimeError) (fun x => x) (fun _ => 2)
    (fun x _ => Ok (x, 0)) (fun q f _ => ((fst q, f), if f =? 1 then Some ValueError else None))
    (fun q => [(0, (Fin 0, Fin (qz (fst q))))]) (fun q => [fst q; snd q]) (fun _ _ _ => [])
    (fun _ _ => []).
(** The answers after a failed computation are those of that computation, and a
    later one replaces them. *)
Example toy_cubical_run : exists o,
  cubical_init toy_cubical (fun _ => false) (Some [1; 2]) (Some [Fin 0; Fin 1]) "" = ([], Ok o) /\
  map snd (snd (run (cubical_step toy_cubical) o
    [CBetti; CPersistence 2 (Fin 0); CBetti; CPersistence 1 (Fin 0); CBetti;
     CPersistence 3 (Fin 0); CBetti; CNumSimplices])) =
  [Ok (AInts []); Ok (ADiagram [(0, (Fin 0, Fin (qz 2)))]); Ok (AInts [2; 2]); Err ValueError;
   Ok (AInts [2; 1]); Ok (ADiagram [(0, (Fin 0, Fin (qz 2)))]); Ok (AInts [2; 3]); Ok (AInt 2)] /\
  current_computation toy_cubical 2 [CPersistence 2 (Fin 0); CBetti; CPersistence 1 (Fin 0)] = Some (2, 1).
Proof. eexists. split; [reflexivity|]. split; reflexivity. Qed.

Print Assumptions cubical_construction.
Print Assumptions periodic_construction.
Print Assumptions cubical_history.
Print Assumptions cubical_delete.
Print Assumptions cubical_undefined.
Print Assumptions intervals_array_refuted.
Print Assumptions simplex_tree_forwards.
Print Assumptions questions_are_pure.
Print Assumptions not_computed.
Print Assumptions computed_from_latest.
Print Assumptions failed_recomputation_refuted.
Print Assumptions lost_computation_iff.
Print Assumptions rips_sources.
Print Assumptions created_tree.
Print Assumptions witness_tree.
Print Assumptions sample_diagrams.
