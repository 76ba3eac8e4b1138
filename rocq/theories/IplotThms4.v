(** C74: a concrete interactive plot, and what does not hold. *)
From Coq Require Import Ascii String.
From Verif Require Import Np NpFacts Fl FlFacts ColorTypes ColorModel ColorSpec MplotTypes MplotModel MplotSpec MplotThms2 MplotThms3 MplotThms4 MplotThms5 MplotThms6 IplotTypes IplotModel IplotSpec IplotThms IplotThms2 IplotThms3.
Open Scope Z_scope.

Definition ex_params : params :=
  [("memory", POther "None"); ("cover__n_intervals", PInt 1); ("cover__kind", PStr "uniform"); ("clusterer__eps", PFloat (qz 1));
   ("contract_nodes", PBool false); ("min_intersection", PFloat (qz 1))]%string.
(** One node, with one interval less; three nodes, whose colours do not vary in the
    second column. *)
Definition ex_graph2 : mgraph := MGraph [MNode 0 0 [0; 1; 2]] [].
Definition ex_graph3 : mgraph := MGraph [MNode 0 0 [1]; MNode 1 0 [2]; MNode 1 1 [2]] [(0, 1)].
Definition ex_run (d : params) : res mgraph :=
  match dget d "cover__n_intervals" with
  | Some (PInt 1) => Ok ex_graph
  | Some (PInt 2) => Ok ex_graph2
  | Some (PInt 3) => Ok ex_graph3
  | _ => Err ValueError
  end.
Notation ex_iplot dim d := (interactive_plot ex_fz ex_fmt ex_viridis ex_layout ex_run dim (Some 3) (qz 12) d 3 (Some ex_frame) FNone (NCall np_mean) (PParams None None)).
Notation ex_splot dim d := (plot_static_mapper_graph ex_fz ex_fmt ex_viridis ex_layout (ex_run d) 3 (Some ex_frame) FNone (NCall np_mean) dim (Some 3) (qz 12) (PParams None None)).
Notation ex_changes flush dim := (changes ex_fz ex_fmt ex_layout ex_run flush dim (Some 3) (qz 12)).
Definition to (z : Z) : string * pval := ("cover__n_intervals"%string, PInt z).

Lemma ex_dict : dict ex_params.
Proof. unfold dict. cbn. repeat (constructor; [intros H; cbn in H; repeat (destruct H as [H|H]; [discriminate|]); contradiction|]). constructor. Qed.

Definition is_ok {A} (x : res A) : bool := match x with Ok _ => true | Err _ => false end.
Lemma ok_inj {A} (a b : A) : Ok a = Ok b -> a = b.
Proof. now intros [= ->]. Qed.
Lemma is_ok_ex {A} (x : res A) : is_ok x = true -> exists a, x = Ok a.
Proof. destruct x; [eauto|discriminate]. Qed.
Definition ex_start dim d : session * istate :=
  match ex_iplot dim d with Ok p => p | Err _ => (Session [] [] [] (Mat 0 []) None (VCall np_mean) None, IState [] [] ex_graph (Mat 0 []) (MFigure [] [] [] (qz 0) [] ex_viridis [] BgWhite None) false) end.
Lemma ex_start_ok dim d : is_ok (ex_iplot dim d) = true -> ex_iplot dim d = Ok (fst (ex_start dim d), snd (ex_start dim d)).
Proof. unfold ex_start. destruct (ex_iplot dim d) as [[s st0]|]; [reflexivity|discriminate]. Qed.
Ltac start dim d := exists (fst (ex_start dim d)), (snd (ex_start dim d)).
Ltac started := split; [apply ex_start_ok; vm_compute; reflexivity|].

(** Two dimensions: a valid change, a rejected one, one back, one of a wrong type. *)
Example ex_interactive : exists s st0 fig2, ex_iplot 2 ex_params = Ok (s, st0) /\ f_bg (i_fig st0) <> BgWhite /\
  ex_splot 2 (i_pipe (ex_changes false 2 s st0 [to 2])) = Ok fig2 /\
  i_fig (ex_changes false 2 s st0 [to 2]) = fig2 /\ i_valid (ex_changes false 2 s st0 [to 2]) = true /\ fig2 <> i_fig st0 /\
  i_valid (ex_changes false 2 s st0 [to 2; to 0]) = false /\ i_fig (ex_changes false 2 s st0 [to 2; to 0]) = fig2 /\
  i_valid (ex_changes false 2 s st0 [to 2; to 0; to 1; ("cover__kind", PInt 3)%string]) = true /\
  i_fig (ex_changes false 2 s st0 [to 2; to 0; to 1; ("cover__kind", PInt 3)%string]) = i_fig st0.
Proof.
  start 2 ex_params. exists (i_fig (ex_changes false 2 (fst (ex_start 2 ex_params)) (snd (ex_start 2 ex_params)) [to 2])).
  assert (E : ex_iplot 2 ex_params = Ok (fst (ex_start 2 ex_params), snd (ex_start 2 ex_params))) by (apply ex_start_ok; vm_compute; reflexivity).
  assert (N : f_bg (i_fig (snd (ex_start 2 ex_params))) <> BgWhite) by (vm_compute; discriminate).
  assert (V : i_valid (ex_changes false 2 (fst (ex_start 2 ex_params)) (snd (ex_start 2 ex_params)) [to 2]) = true) by (vm_compute; reflexivity).
  assert (V2 : i_valid (ex_changes false 2 (fst (ex_start 2 ex_params)) (snd (ex_start 2 ex_params)) ([to 2] ++ [to 0])%list) = false) by (vm_compute; reflexivity).
  split; [exact E|]. split; [exact N|]. split.
  { destruct (interactive_static ex_fz ex_fmt ex_viridis ex_layout ex_run false 2 (Some 3) (qz 12) _ _ _ _ _ _ _ _ [to 2] ex_dict E V) as [_ [H _]]. exact (H N). }
  split; [reflexivity|]. split; [exact V|]. split; [intros H; apply (f_equal f_sizes) in H; revert H; vm_compute; discriminate|]. split; [exact V2|].
  split; [destruct (interactive_rejected ex_fz ex_fmt ex_viridis ex_layout ex_run false 2 (Some 3) (qz 12) _ _ _ _ _ _ _ _ [to 2] (to 0) ex_dict E) as [_ H]; exact (H eq_refl V2)|].
  assert (V3 : i_valid (ex_changes false 2 (fst (ex_start 2 ex_params)) (snd (ex_start 2 ex_params)) [to 2; to 0; to 1; ("cover__kind", PInt 3)%string]) = true) by (vm_compute; reflexivity).
  split; [exact V3|]. pose proof (interactive_static ex_fz ex_fmt ex_viridis ex_layout ex_run false 2 (Some 3) (qz 12) _ _ _ _ _ _ _ _ [to 2; to 0; to 1; ("cover__kind", PInt 3)%string] ex_dict E V3) as [_ [H3 _]]. specialize (H3 N).
  assert (V0 : i_valid (ex_changes false 2 (fst (ex_start 2 ex_params)) (snd (ex_start 2 ex_params)) []) = true) by (vm_compute; reflexivity).
  pose proof (interactive_static ex_fz ex_fmt ex_viridis ex_layout ex_run false 2 (Some 3) (qz 12) _ _ _ _ _ _ _ _ [] ex_dict E V0) as [_ [H0 _]]. specialize (H0 N).
  assert (P : i_pipe (ex_changes false 2 (fst (ex_start 2 ex_params)) (snd (ex_start 2 ex_params)) [to 2; to 0; to 1; ("cover__kind", PInt 3)%string]) = i_pipe (ex_changes false 2 (fst (ex_start 2 ex_params)) (snd (ex_start 2 ex_params)) [])) by (vm_compute; reflexivity).
  rewrite P in H3. rewrite H3 in H0. apply ok_inj in H0. exact H0.
Qed.
Example ex_editable : editable ex_params "cover__n_intervals" /\ passed_on ex_params "cover__n_intervals" /\ value_of ex_params "cover__n_intervals" (PInt 1) /\
  shown_value (PInt 1) "cover__n_intervals" [to 2; to 0] (PInt 0) /\ same_type (PInt 0) (PInt 1).
Proof.
  assert (E : editable ex_params "cover__n_intervals") by (split; [now left|]; exists (PInt 1); split; [right; now left|constructor]).
  split; [exact E|]. split; [split; [exact E|intros [H|H]; discriminate]|]. split; [right; now left|]. split; [|constructor].
  apply (shown_change (PInt 1) "cover__n_intervals" [to 2] (PInt 2)); [|constructor]. apply (shown_change (PInt 1) "cover__n_intervals" [] (PInt 1)); constructor.
Qed.
(** The hypotheses of [interactive_shows] in three dimensions, after a round trip. *)
Example ex_shows : exists s st0 pos, ex_iplot 3 ex_params = Ok (s, st0) /\
  figure_shows ex_fz ex_fmt (Some 3) ex_graph 3 pos (qz 12) None ex_viridis ex_stops ex_named (i_fig (ex_changes false 3 s st0 [to 2; to 1])).
Proof.
  destruct (ex_request 3) as [pos R]; [now right|]. start 3 ex_params. exists pos.
  assert (E : ex_iplot 3 ex_params = Ok (fst (ex_start 3 ex_params), snd (ex_start 3 ex_params))) by (apply ex_start_ok; vm_compute; reflexivity). split; [exact E|].
  assert (H1 : f_bg (i_fig (snd (ex_start 3 ex_params))) <> BgWhite) by (vm_compute; discriminate).
  assert (H2 : i_valid (ex_changes false 3 (fst (ex_start 3 ex_params)) (snd (ex_start 3 ex_params)) [to 2; to 1]) = true) by (vm_compute; reflexivity).
  assert (H3 : i_graph (ex_changes false 3 (fst (ex_start 3 ex_params)) (snd (ex_start 3 ex_params)) [to 2; to 1]) = ex_graph) by (vm_compute; reflexivity).
  pose proof (interactive_shows ex_fz ex_fmt ex_viridis ex_layout ex_run false 3 (Some 3) (qz 12) ex_fmt_ok ex_params 3 (Some ex_frame) ex_frame FNone [(LStr "a", [qz 1; qz 3; qz 5]); (LStr "b", [qz 7; qz 5; qz 5])] np_mean (PParams None None) _ _ [to 2; to 1] pos ex_stops ex_named ex_dict E H1 H2) as S.
  rewrite H3 in S. apply S. exact R.
Qed.

(** ** What does not hold *)
(** A change is not always accepted when a static plot with its parameters can be
    drawn (node colours constant, three dimensions), and the graph is then not the one
    in the figure. *)
Theorem interactive_constant_refuted : exists s st0 fig, ex_iplot 3 ex_params = Ok (s, st0) /\
  let st := ex_changes false 3 s st0 [to 2] in
  ex_splot 3 (i_pipe st) = Ok fig /\ i_valid st = false /\ i_fig st = i_fig st0 /\ zlen (g_nodes (i_graph st)) <> zlen (f_sizes (i_fig st)).
Proof.
  start 3 ex_params. assert (F : exists fig, ex_splot 3 (i_pipe (ex_changes false 3 (fst (ex_start 3 ex_params)) (snd (ex_start 3 ex_params)) [to 2])) = Ok fig) by (apply is_ok_ex; vm_compute; reflexivity).
  assert (E : ex_iplot 3 ex_params = Ok (fst (ex_start 3 ex_params), snd (ex_start 3 ex_params))) by (apply ex_start_ok; vm_compute; reflexivity).
  assert (V : i_valid (ex_changes false 3 (fst (ex_start 3 ex_params)) (snd (ex_start 3 ex_params)) ([] ++ [to 2])%list) = false) by (vm_compute; reflexivity).
  destruct F as [fig F]. exists fig. split; [exact E|]. split; [exact F|]. split; [exact V|]. split.
  - destruct (interactive_rejected ex_fz ex_fmt ex_viridis ex_layout ex_run false 3 (Some 3) (qz 12) _ _ _ _ _ _ _ _ [] (to 2) ex_dict E) as [_ H]. exact (H eq_refl V).
  - vm_compute. discriminate.
Qed.
(** If the node colours of the first plot are constant, label colours of later ones
    are not those of static plots. *)
Theorem interactive_white_refuted : exists s st0 fig, ex_iplot 3 (dset ex_params "cover__n_intervals" (PInt 2)) = Ok (s, st0) /\
  let st := ex_changes false 3 s st0 [to 1] in
  ex_splot 3 (i_pipe st) = Ok fig /\ i_valid st = true /\ f_bg (i_fig st) = BgWhite /\ exists l, f_bg fig = BgNodes l.
Proof.
  start 3 (dset ex_params "cover__n_intervals" (PInt 2)). assert (F : exists fig, ex_splot 3 (i_pipe (ex_changes false 3 (fst (ex_start 3 (dset ex_params "cover__n_intervals" (PInt 2)))) (snd (ex_start 3 (dset ex_params "cover__n_intervals" (PInt 2)))) [to 1])) = Ok fig) by (apply is_ok_ex; vm_compute; reflexivity).
  destruct F as [fig F]. exists fig. started. split; [exact F|]. split; [vm_compute; reflexivity|]. split; [vm_compute; reflexivity|].
  assert (X : match ex_splot 3 (i_pipe (ex_changes false 3 (fst (ex_start 3 (dset ex_params "cover__n_intervals" (PInt 2)))) (snd (ex_start 3 (dset ex_params "cover__n_intervals" (PInt 2)))) [to 1])) with Ok g => match f_bg g with BgNodes _ => true | _ => false end | _ => false end = true) by (vm_compute; reflexivity).
  rewrite F in X. destruct (f_bg fig) as [| | |l]; try discriminate. now exists l.
Qed.
(** A float min_intersection has a widget, but changing it changes nothing. *)
Theorem interactive_min_intersection_refuted : exists s st0, ex_iplot 2 ex_params = Ok (s, st0) /\
  editable ex_params "min_intersection" /\
  let st := ex_changes false 2 s st0 [("min_intersection"%string, PFloat (qz 7))] in
  value_of (i_widgets st) "min_intersection" (PFloat (qz 7)) /\ value_of (i_pipe st) "min_intersection" (PFloat (qz 1)) /\ i_valid st = true.
Proof.
  start 2 ex_params. started. split; [split; [right; right; now left|]; exists (PFloat (qz 1)); split; [do 5 right; now left|constructor]|].
  split; [|split; [|vm_compute; reflexivity]]; (eapply dget_In || apply dget_In); vm_compute; (f_equal; f_equal; apply qc_eq; reflexivity) || reflexivity.
Qed.
(** If the figure keeps what was changed before an exception, a rejected change may
    leave a figure whose menu belongs to another graph. *)
Theorem interactive_menu_refuted : exists s st0 menu b, ex_iplot 3 ex_params = Ok (s, st0) /\
  let st := ex_changes true 3 s st0 [to 3] in
  i_valid st = false /\ f_colors (i_fig st) = [qz 3; qz 5; qz 5] /\ f_menu (i_fig st) = Some menu /\ Znth menu 0 = Some b /\ b_colors b = [qz 2; qz 4].
Proof.
  start 3 ex_params. assert (M : exists menu b, f_menu (i_fig (ex_changes true 3 (fst (ex_start 3 ex_params)) (snd (ex_start 3 ex_params)) [to 3])) = Some menu /\ Znth menu 0 = Some b /\ map this (b_colors b) = [2#1; 4#1]%Q).
  { assert (X : match f_menu (i_fig (ex_changes true 3 (fst (ex_start 3 ex_params)) (snd (ex_start 3 ex_params)) [to 3])) with Some (b :: _) => map this (b_colors b) | _ => [] end = [2#1; 4#1]%Q) by (vm_compute; reflexivity).
    destruct (f_menu _) as [[|b menu]|]; try discriminate. exists (b :: menu), b. split; [reflexivity|]. split; [reflexivity|assumption]. }
  assert (Q : forall l l', map this l = map this l' -> l = l').
  { induction l as [|x l IH]; intros [|y l'] H; try discriminate; [reflexivity|]. cbn [map] in H. injection H as H1 H2. f_equal; [|now apply IH]. apply Qc_is_canon. now rewrite H1. }
  destruct M as [menu [b [M1 [M2 M3]]]]. exists menu, b. started. split; [vm_compute; reflexivity|]. split; [apply Q; vm_compute; reflexivity|]. split; [exact M1|]. split; [exact M2|]. apply Q. rewrite M3. reflexivity.
Qed.

Print Assumptions interactive_params.
Print Assumptions interactive_static.
Print Assumptions interactive_summaries.
Print Assumptions interactive_valid.
Print Assumptions interactive_history_independent.
Print Assumptions interactive_rejected.
Print Assumptions interactive_array.
Print Assumptions interactive_shows.
Print Assumptions interactive_constant_refuted.
Print Assumptions interactive_white_refuted.
Print Assumptions interactive_min_intersection_refuted.
Print Assumptions interactive_menu_refuted.
