(** Order facts and a linear-arithmetic tactic for canonical rationals. *)
From Verif Require Import Fl.
From Coq Require Import Lia Bool Lqa Setoid.

Lemma this_Q2Qc q : (this (Q2Qc q) == q)%Q.
Proof. simpl. apply Qred_correct. Qed.
Lemma this_add x y : (this (x + y)%Qc == this x + this y)%Q.
Proof. unfold Qcplus. apply this_Q2Qc. Qed.
Lemma this_mul x y : (this (x * y)%Qc == this x * this y)%Q.
Proof. unfold Qcmult. apply this_Q2Qc. Qed.
Lemma this_opp x : (this (- x)%Qc == - this x)%Q.
Proof. unfold Qcopp. apply this_Q2Qc. Qed.
Lemma this_sub x y : (this (x - y)%Qc == this x - this y)%Q.
Proof. unfold Qcminus. rewrite this_add, this_opp. reflexivity. Qed.
Lemma this_inv x : (this (/ x)%Qc == / this x)%Q.
Proof. unfold Qcinv. apply this_Q2Qc. Qed.
Lemma this_div x y : (this (x / y)%Qc == this x / this y)%Q.
Proof. unfold Qcdiv. rewrite this_mul, this_inv. reflexivity. Qed.
Lemma this_0 : (this 0%Qc == 0)%Q. Proof. reflexivity. Qed.
Lemma this_1 : (this 1%Qc == 1)%Q. Proof. reflexivity. Qed.
Lemma Qc_eq_this x y : x = y <-> (this x == this y)%Q.
Proof. split; [intros ->; reflexivity|apply Qc_is_canon]. Qed.

(** Turn Qc (in)equalities into Q ones and call lra. *)
Ltac qc_norm H :=
  repeat (first [rewrite this_add in H | rewrite this_sub in H | rewrite this_opp in H
    | rewrite this_mul in H | rewrite this_div in H | rewrite this_inv in H
    | rewrite this_Q2Qc in H]).
Ltac qc_norm_goal :=
  repeat (first [rewrite this_add | rewrite this_sub | rewrite this_opp
    | rewrite this_mul | rewrite this_div | rewrite this_inv
    | rewrite this_Q2Qc]).
Ltac qc_prep :=
  unfold Qcle, Qclt in *;
  repeat match goal with
  | H : ?x = ?y |- _ =>
      match type of x with Qc => apply (proj1 (Qc_eq_this x y)) in H end
  | H : ~ (?x = ?y) |- _ =>
      match type of x with Qc =>
        assert (~ (this x == this y)%Q) by (intro; apply H; now apply Qc_is_canon);
        clear H end
  end;
  repeat match goal with
  | |- _ /\ _ => split
  | |- ?x = ?y => match type of x with Qc => apply Qc_is_canon end
  | |- ?x <> ?y => match type of x with Qc => intro end
  end;
  repeat match goal with
  | H : (_ <= _)%Q |- _ => progress (qc_norm H)
  | H : (_ < _)%Q |- _ => progress (qc_norm H)
  | H : (_ == _)%Q |- _ => progress (qc_norm H)
  | H : (~ (_ == _))%Q |- _ => progress (qc_norm H)
  end;
  qc_norm_goal; change (this 0%Qc) with 0%Q in *; change (this 1%Qc) with 1%Q in *;
  simpl inject_Z in *.
Ltac qlra := qc_prep; lra.
Ltac qnra := qc_prep; nra.

Lemma Qcleb_spec x y : reflect (x <= y) (Qcleb x y).
Proof.
  unfold Qcleb. destruct (Qle_bool x y) eqn:E; constructor.
  - now apply Qle_bool_iff.
  - intros H. apply Qle_bool_iff in H. congruence.
Qed.
Lemma Qcltb_spec x y : reflect (x < y) (Qcltb x y).
Proof.
  unfold Qcltb. destruct (Qle_bool y x) eqn:E; simpl; constructor.
  - apply Qle_bool_iff in E. intros H. qlra.
  - unfold Qclt. apply Qnot_le_lt. intros H. apply Qle_bool_iff in H. congruence.
Qed.
Lemma Qceqb_spec x y : reflect (x = y) (Qceqb x y).
Proof.
  unfold Qceqb. destruct (Qeq_bool x y) eqn:E; constructor.
  - apply Qc_is_canon. now apply Qeq_bool_iff.
  - intros ->. assert (Qeq_bool y y = true) by (apply Qeq_bool_iff; reflexivity). congruence.
Qed.
Lemma Qcleb_le x y : Qcleb x y = true <-> x <= y.
Proof. destruct (Qcleb_spec x y); split; congruence || auto. Qed.
Lemma Qcltb_lt x y : Qcltb x y = true <-> x < y.
Proof. destruct (Qcltb_spec x y); split; congruence || auto. Qed.
Lemma Qceqb_eq x y : Qceqb x y = true <-> x = y.
Proof. destruct (Qceqb_spec x y); split; congruence || auto. Qed.
Lemma Qc_lt_le_dec x y : {x < y} + {y <= x}.
Proof. destruct (Qcltb_spec x y) as [H|H]; [left; assumption|right]. apply Qcnot_lt_le. assumption. Qed.

(** Decide all boolean Qc comparisons in the context. *)
Ltac qdec :=
  repeat match goal with
  | |- context [Qcleb ?a ?b] => destruct (Qcleb_spec a b)
  | |- context [Qcltb ?a ?b] => destruct (Qcltb_spec a b)
  | |- context [Qceqb ?a ?b] => destruct (Qceqb_spec a b)
  | H : context [Qcleb ?a ?b] |- _ => destruct (Qcleb_spec a b)
  | H : context [Qcltb ?a ?b] |- _ => destruct (Qcltb_spec a b)
  | H : context [Qceqb ?a ?b] |- _ => destruct (Qceqb_spec a b)
  end.
Lemma Qcnle x y : ~ x <= y -> y < x. Proof. apply Qcnot_le_lt. Qed.
Lemma Qcnlt x y : ~ x < y -> y <= x. Proof. apply Qcnot_lt_le. Qed.
Ltac qneg :=
  repeat match goal with
  | H : ~ (?x <= ?y) |- _ => apply Qcnle in H
  | H : ~ (?x < ?y) |- _ => apply Qcnlt in H
  end.

Lemma fle_refl x : isnan x = false -> fle x x = true.
Proof. destruct x; simpl; try easy. intros _. apply Qcleb_le. qlra. Qed.
Lemma fle_nan x y : fle x y = true -> isnan x = false /\ isnan y = false.
Proof. destruct x, y; simpl; easy. Qed.
Lemma flt_nan x y : flt x y = true -> isnan x = false /\ isnan y = false.
Proof. destruct x, y; simpl; easy. Qed.
Lemma fle_trans x y z : fle x y = true -> fle y z = true -> fle x z = true.
Proof.
  destruct x, y, z; simpl; try easy. rewrite !Qcleb_le. intros; qlra.
Qed.
Lemma flt_fle x y : flt x y = true -> fle x y = true.
Proof. destruct x, y; simpl; try easy. rewrite Qcleb_le, Qcltb_lt. intros; qlra. Qed.
Lemma flt_trans x y z : flt x y = true -> flt y z = true -> flt x z = true.
Proof. destruct x, y, z; simpl; try easy. rewrite !Qcltb_lt. intros; qlra. Qed.
Lemma fle_flt_trans x y z : fle x y = true -> flt y z = true -> flt x z = true.
Proof. destruct x, y, z; simpl; try easy. rewrite !Qcltb_lt, !Qcleb_le. intros; qlra. Qed.
Lemma flt_fle_trans x y z : flt x y = true -> fle y z = true -> flt x z = true.
Proof. destruct x, y, z; simpl; try easy. rewrite !Qcltb_lt, !Qcleb_le. intros; qlra. Qed.
Lemma flt_irrefl x : flt x x = false.
Proof. destruct x; simpl; try easy. destruct (Qcltb_spec q q); [|easy]. qlra. Qed.
Lemma fle_antisym x y : fle x y = true -> fle y x = true -> x = y.
Proof.
  destruct x, y; simpl; try easy. rewrite !Qcleb_le. intros. f_equal. qlra.
Qed.
Lemma fle_total x y : isnan x = false -> isnan y = false -> fle x y = true \/ flt y x = true.
Proof.
  destruct x, y; simpl; try easy; auto. intros _ _.
  destruct (Qcleb_spec q q0); [auto|]. right. apply Qcltb_lt. qneg. assumption.
Qed.
Lemma fle_false x y : isnan x = false -> isnan y = false -> fle x y = false -> flt y x = true.
Proof. intros Hx Hy H. destruct (fle_total x y Hx Hy); congruence. Qed.
Lemma flt_false x y : isnan x = false -> isnan y = false -> flt x y = false -> fle y x = true.
Proof.
  destruct x, y; simpl; try easy. intros _ _.
  destruct (Qcltb_spec q q0); [easy|]. intros _. apply Qcleb_le. qneg. assumption.
Qed.
Lemma feq_eq x y : feq x y = true -> x = y.
Proof. destruct x, y; simpl; try easy. rewrite Qceqb_eq. congruence. Qed.
Lemma feq_refl x : isnan x = false -> feq x x = true.
Proof. destruct x; simpl; try easy. intros _. now apply Qceqb_eq. Qed.
Lemma flt_not_fle x y : flt x y = true -> fle y x = false.
Proof.
  destruct x, y; simpl; try easy. rewrite Qcltb_lt. intros H.
  destruct (Qcleb_spec q0 q); [|easy]. qlra.
Qed.

(** *** Integers as floats *)
Lemma this_qz z : (this (qz z) == inject_Z z)%Q.
Proof. apply this_Q2Qc. Qed.
Lemma qz_le a b : (qz a <= qz b)%Qc <-> (a <= b)%Z.
Proof. unfold Qcle. rewrite !this_qz. unfold Qle, inject_Z. cbn [Qnum Qden]. rewrite !Z.mul_1_r. reflexivity. Qed.
Lemma qz_lt a b : (qz a < qz b)%Qc <-> (a < b)%Z.
Proof. unfold Qclt. rewrite !this_qz. unfold Qlt, inject_Z. cbn [Qnum Qden]. rewrite !Z.mul_1_r. reflexivity. Qed.
Lemma qz_inj a b : qz a = qz b <-> a = b.
Proof.
  split; [|congruence]. intros H. apply Qc_eq_this in H. rewrite !this_qz in H.
  unfold Qeq, inject_Z in H. cbn [Qnum Qden] in H. rewrite !Z.mul_1_r in H. assumption.
Qed.
Lemma qz_0 : qz 0 = 0%Qc. Proof. apply Qc_is_canon. reflexivity. Qed.
Lemma qz_1 : qz 1 = 1%Qc. Proof. apply Qc_is_canon. reflexivity. Qed.
Lemma qz_add a b : qz (a + b) = (qz a + qz b)%Qc.
Proof. apply Qc_is_canon. rewrite this_add, !this_qz. rewrite inject_Z_plus. reflexivity. Qed.
Lemma qz_opp a : qz (- a) = (- qz a)%Qc.
Proof. apply Qc_is_canon. rewrite this_opp, !this_qz. rewrite inject_Z_opp. reflexivity. Qed.
Lemma qz_sub a b : qz (a - b) = (qz a - qz b)%Qc.
Proof. unfold Z.sub. rewrite qz_add, qz_opp. reflexivity. Qed.
Lemma qz_mul a b : qz (a * b) = (qz a * qz b)%Qc.
Proof. apply Qc_is_canon. rewrite this_mul, !this_qz. rewrite inject_Z_mult. reflexivity. Qed.
Lemma fz_qz z : fz z = Fin (qz z). Proof. reflexivity. Qed.
Lemma fz_inj a b : fz a = fz b -> a = b.
Proof. rewrite !fz_qz. intros H. apply qz_inj. congruence. Qed.
Lemma fle_fz a b : fle (fz a) (fz b) = (a <=? b)%Z.
Proof.
  rewrite !fz_qz. cbn [fle]. destruct (Qcleb_spec (qz a) (qz b)) as [H|H]; rewrite qz_le in H;
  destruct (Z.leb_spec a b); lia || reflexivity.
Qed.
Lemma flt_fz a b : flt (fz a) (fz b) = (a <? b)%Z.
Proof.
  rewrite !fz_qz. cbn [flt]. destruct (Qcltb_spec (qz a) (qz b)) as [H|H]; rewrite qz_lt in H;
  destruct (Z.ltb_spec a b); lia || reflexivity.
Qed.
Lemma feq_fz a b : feq (fz a) (fz b) = (a =? b)%Z.
Proof.
  rewrite !fz_qz. cbn [feq]. destruct (Qceqb_spec (qz a) (qz b)) as [H|H]; rewrite qz_inj in H;
  destruct (Z.eqb_spec a b); lia || reflexivity.
Qed.
Lemma f0_fz : f0 = fz 0. Proof. rewrite fz_qz, qz_0. reflexivity. Qed.
