(** Concrete cases for the theorems on plots (C68-C70). *)
From Verif Require Import Np NpFacts Fl FlFacts DiagTypes DiagModel DiagSpec VecModel VecSpec VecThms
  HomModel PlotTypes PlotModel PlotSpec PlotThms PlotThms2 PlotThms3 PlotThms4.
Open Scope Z_scope.

(** A diagram with a repeated point, padding and an infinite point. *)
Definition ex_plot : diagram :=
  [Pt (fz 0) (fz 10) (fz 0); Pt (fz 0) (fz 10) (fz 0); Pt (fz 0) PInf (fz 0);
   Pt (fz 2) (fz 2) (fz 1); Pt (fz 3) (fz 5) (fz 1)].
Example ex_plot_drawable : drawable ex_plot.
Proof.
  intros p Hp. repeat (destruct Hp as [<-|Hp]; [split; [eexists; reflexivity|]; (now left) || (right; eexists; reflexivity)|]). destruct Hp.
Qed.
(** The hypothesis of [plot_diagram_spec] also allows births at -inf. *)
Example ex_plot_plottable : plottable ex_plot /\ plottable (Pt NInf (fz 4) (fz 0) :: ex_plot).
Proof.
  split; [apply drawable_plottable, ex_plot_drawable|]. split.
  - intros p [<-|Hp]; [split; [now left|right; eexists; reflexivity]|]. destruct (ex_plot_drawable p Hp) as [B D]. auto.
  - intros _. exists (qz 4), (Pt NInf (fz 4) (fz 0)). split; [now left|]. split; [discriminate|now right].
Qed.
Example ex_plot_requested : requested ex_plot None [fz 0; fz 1].
Proof.
  split.
  - intros i j a b H Ha Hb. pose proof (Znth_Some_lt _ _ _ Hb) as B. change (zlen [fz 0; fz 1]) with 2 in B.
    assert (i = 0) as -> by lia. assert (j = 1) as -> by lia. injection Ha as <-. injection Hb as <-. reflexivity.
  - intros q. cbn. intuition.
Qed.
Example ex_plot_named : forall q, In q [fz 0; fz 1] -> exists n, named q n.
Proof. intros q [<-|[<-|[]]]; [exists (HName 0)|exists (HName 1)]; right; eauto. Qed.
Example ex_plot_infinite : has_infinite_point ex_plot.
Proof. exists (Pt (fz 0) PInf (fz 0)). split; [cbn; auto|reflexivity]. Qed.
Example ex_plot_spread : exists v w, off_diagonal_coordinate ex_plot v /\ off_diagonal_coordinate ex_plot w /\ v <> w.
Proof.
  exists (qz 0), (qz 10). split; [|split].
  - exists (Pt (fz 0) (fz 10) (fz 0)). split; [now left|]. split; [discriminate|now left].
  - exists (Pt (fz 0) (fz 10) (fz 0)). split; [now left|]. split; [discriminate|now right].
  - discriminate.
Qed.
(** The figure: deaths at infinity are drawn at height 11 within the range
    -1.2 .. 11.2, and the repeated point is reported twice. *)
Definition feqs (l l' : list fl) : bool :=
  (zlen l =? zlen l') && forallb (fun p => feq (fst p) (snd p)) (combine l l').
Example plot_diagram_example :
  match plot_diagram ex_plot None with
  | Ok (Figure (a, b) [Diagonal a' b'; Markers (HName 0) x0 y0 h0; Markers (HName 1) x1 y1 h1; Infinity a'' b'' y]) =>
      feqs [a; b; a'; b'; a''; b''; y] (let a := dec (-12) 10 in let b := dec 112 10 in [a; b; a; b; a; b; fz 11]) &&
      feqs x0 [fz 0; fz 0; fz 0] && feqs y0 [fz 10; fz 10; fz 11] && feqs x1 [fz 3] && feqs y1 [fz 5] = true /\
      map hv_mult h0 = [Some 2; Some 2; None] /\ map hv_mult h1 = [None]
  | _ => False
  end.
Proof. vm_compute. repeat split. Qed.
(** Another padding of the same points gives the same figure. *)
Example plot_padding_example :
  plot_diagram ex_plot None =
  plot_diagram (Pt (fz 7) (fz 7) (fz 0) :: firstn 3 ex_plot ++ [Pt (fz 3) (fz 5) (fz 1); Pt (fz 9) (fz 9) (fz 1)]) None.
Proof. vm_compute. reflexivity. Qed.

(** A transformer that treats samples separately. *)
Example transform_plot_example :
  let transform := fun Y : list Z => match Y with [] => Err ValueError | _ => Ok (map (Z.mul 2) Y) end in
  transform_plot transform (fun y => Ok (y + 1)) [4; 5; 6] 1 = Ok ([10], 11) /\
  transform_plot transform (fun y => Ok (y + 1)) [4; 5; 6] (-2) = Ok ([10], 11) /\
  transform_plot transform (fun y => Ok (y + 1)) [4; 5; 6] (-1) = Err ValueError /\
  transform_then_plot transform (fun y => Ok (y + 1)) [4; 5; 6] (-1) = Ok 13.
Proof. cbv zeta. repeat split. Qed.

(** The training collection of VecThms has dimensions 0 and 1. *)
Example ex_raw_named : forall q, In q (map pq (hd [] (of_raw ex_raw))) -> exists n, named q n.
Proof.
  intros q Hq. cbn in Hq. destruct Hq as [<-|[<-|[<-|[]]]]; [exists (HName 0)|exists (HName 0)|exists (HName 1)]; right; eauto.
Qed.
Example betti_plot_example :
  match fit_dims (of_raw ex_raw), fit_samplings 4 (of_raw ex_raw), betti_curve 4 1 (of_raw ex_raw) (of_raw ex_raw) with
  | Ok dims, Ok samplings, Ok (c :: _) =>
      match plot_curves dims samplings c (Some [fz 1]) with
      | Ok [l] => feq (l_name l) (fz 1) = true /\ feqs (map Fin (l_x l)) [fz 0; dec 2 3; dec 4 3; fz 2] = true /\ l_y l = [1; 1; 1; 0]
      | _ => False
      end
  | _, _, _ => False
  end.
Proof. vm_compute. repeat split. Qed.
Example heat_plot_example :
  match fit_dims (of_raw ex_raw), fit_samplings 3 (of_raw ex_raw),
        heat_kernel (fun _ im => im) 1%Qc 3 1 (of_raw ex_raw) (of_raw ex_raw) with
  | Ok dims, Ok samplings, Ok (c :: _) =>
      match plot_heat_kernel dims samplings c (-1) with
      | Ok h => h_reversed h = false /\ map (feqs [fz 0; fz 1; fz 2]) (match h_x h with Some l => [map Fin l] | None => [] end) = [true] /\
                map (feqs [fz 2; fz 1; fz 0]) (match h_y h with Some l => [map Fin l] | None => [] end) = [true] /\
                map (fun r => feqs (map Fin r) [fz 1; fz 0; fz 0]) (h_z h) = [true; false; false]
      | _ => False
      end
  | _, _, _ => False
  end.
Proof. vm_compute. repeat split. Qed.

Print Assumptions plot_diagram_spec.
Print Assumptions plot_diagram_inside.
Print Assumptions plot_diagram_infinite_apart.
Print Assumptions plot_diagram_infinite_apart_refuted.
Print Assumptions plot_diagram_ignores_padding.
Print Assumptions transform_plot_spec.
Print Assumptions transform_plot_sample_wise.
Print Assumptions transform_plot_last_refuted.
Print Assumptions transform_plot_out_of_range.
Print Assumptions homology_plot_sample_independent.
Print Assumptions homology_diagrams_drawable.
Print Assumptions homology_transform_plot.
Print Assumptions fitted_grids_unique.
Print Assumptions fitted_grids2_unique.
Print Assumptions betti_curve_plot_spec.
Print Assumptions silhouette_plot_spec.
Print Assumptions plot_unknown_dimension.
Print Assumptions landscape_plot_spec.
Print Assumptions heat_kernel_plot_spec.
Print Assumptions persistence_image_plot_spec.
