(** C95, example: the hypotheses hold for a picture and the stand-in for GUDHI. *)
From Coq Require Import Reals.
From Verif Require Import Np NpFacts Fl Nd DiagTypes RNp FlowModel FlowSpec ImgSpec ImgModel ImgFlowModel ImgFlowSpec ImgFlowSpec2 ImgFlowThms5 ImgFlowThms6.
Open Scope Z_scope.

Example ex_pipeline_rows f e : exists inf T, is_infinity_value None f 5 5 [picture] inf /\
  image_pipeline (Pt f0 f0 f0) toy_gudhi f None [1; 0] None true e 2 [picture] [picture] = Ok T /\
  Forall2 (image_row toy_gudhi f 5 5 true inf e [0; 1]) [picture] T.
Proof.
  apply (image_pipeline_spec (Pt f0 f0 f0) toy_gudhi f None [1; 0] [0; 1] None true e [2; 3]); try (apply ex_images; reflexivity);
    try (intros x [<-|[]]; exact ex_binary); try (cbn; lia); try easy; try exact toy_values.
  - repeat constructor; cbn; intuition lia.
  - split; [cbn; intuition|]. intros i j a b B Ha Hb. pose proof (Znth_Some_lt _ _ _ Ha). pose proof (Znth_Some_lt _ _ _ Hb) as B'. change (zlen [0; 1]) with 2 in *.
    assert (i = 0) as -> by lia. assert (j = 1) as -> by lia. cbn in Ha, Hb. injection Ha as <-. injection Hb as <-. lia.
Qed.
