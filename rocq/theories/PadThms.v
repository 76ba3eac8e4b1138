(** C38: which paddings and images Padder refuses. *)
From Verif Require Import Np NpFacts Nd NdFacts Fl FlFacts VecModel ImgModel ImgSpec ImgProofs ImgProofs2 ImgProofs3 ImgThms ImgThms2.
Open Scope Z_scope.

(** Together with padder_spec this settles all cases: Padder works exactly when the padding has
    one non-negative width for each dimension of the training images and the transformed images
    have as many dimensions; otherwise it raises ValueError. *)
Theorem padder_errors {A} padding (value : A) n_jobs s s' X Y :
  1 <= n_jobs -> images s X -> 1 <= zlen s <= 3 -> images s' Y ->
  let p := match padding with Some p => p | None => map (fun _ => 1) s end in
  zlen p <> zlen s \/ zlen s' <> zlen s \/ (exists q, In q p /\ q < 0) ->
  padder padding value n_jobs X Y = Err ValueError.
Proof.
  intros HJ HX HL [NY HY] p H. unfold padder, fit_padder. rewrite (fit_shape_ok s X HX HL). cbn [bind].
  destruct (Z.eq_dec (zlen p) (zlen s)) as [EP|NP].
  - assert (E : match padding with None => Ok (map (fun _ => 1) s) | Some p => if zlen p =? zlen s then Ok p else Err ValueError end = Ok p).
    { destruct padding as [p0|]; [|reflexivity]. unfold p in *. now rewrite (proj2 (Z.eqb_eq _ _) EP). }
    rewrite E. cbn [bind]. unfold pad_batch.
    rewrite (parallel_ext _ (fun b => mapM (fun x => if (zlen (nshape x) =? zlen p) && forallb (fun q => 0 <=? q) p
      then Ok (np_pad p value x) else Err ValueError) b)); [|assumption|intros b Hb; now rewrite <- checked_mapM].
    rewrite parallel_mapM by assumption. destruct Y as [|y Y]; [easy|]. cbn [mapM].
    destruct (HY y (or_introl eq_refl)) as [_ ->].
    assert (C : (zlen s' =? zlen p) && forallb (fun q => 0 <=? q) p = false); [|now rewrite C].
    destruct H as [H|[H|[q [Hq Hneg]]]]; [easy|now rewrite EP, (proj2 (Z.eqb_neq _ _) H)|].
    apply andb_false_iff. right. apply not_true_is_false. intros C. rewrite forallb_forall in C. specialize (C q Hq). lia.
  - destruct padding as [p0|]; [|exfalso; apply NP; unfold p; apply zlen_map].
    unfold p in NP. now rewrite (proj2 (Z.eqb_neq _ _) NP).
Qed.

(** The three ways to be refused occur. *)
Example padder_errors_example :
  zlen [1] <> zlen [3; 4] /\ zlen [2; 2; 2] <> zlen [3; 4] /\
  padder (Some [1]) 7 1 [ex_img] [ex_img] = Err ValueError /\
  padder None 7 1 [ex_img] [ex_img3] = Err ValueError /\
  padder (Some [1; -1]) 7 1 [ex_img] [ex_img] = Err ValueError.
Proof. repeat split; discriminate. Qed.

Print Assumptions padder_errors.
