(* C93: fit and the other methods leave the parameters alone (links the life cycle
   model of FitModel.v with the constructors of CtorModel.v). *)
From Coq Require Import List String Bool.
From Verif Require Import Np FitTypes FitAna FitModel.
From Verif Require CtorTypes CtorModel CtorThms.
Import ListNotations.
Open Scope string_scope.
Open Scope list_scope.

Definition params_of (n : string) : option (list string) :=
  match find (fun k => CtorTypes.c_name k =? n) CtorModel.classes with
  | Some k => Some (map fst (CtorTypes.c_params k))
  | None => None
  end.

(* the hyperparameters an expression, a statement reads *)
Definition exp_params (e : exp) : list string :=
  match e with
  | May _ rs | Tot _ rs => flat_map (fun r => match r with Par p => [p] | _ => [] end) rs
  end.
Fixpoint stmt_params (s : stmt) : list string :=
  match s with
  | Seq s t => stmt_params s ++ stmt_params t
  | Let _ e | SetA _ e | Return e => exp_params e
  | If e s t => exp_params e ++ stmt_params s ++ stmt_params t
  | For _ e b => exp_params e ++ stmt_params b
  | _ => []
  end.

Definition methods (c : cls) : list stmt := c_fit c :: map snd (c_meths c).

Definition fit_ok (c : cls) : bool :=
  match params_of (c_name c) with
  | None => false
  | Some ps =>
      forallb (fun m => forallb (fun a => negb (CtorTypes.mem a ps)) (writes m) &&
                        forallb (fun p => CtorTypes.mem p ps) (stmt_params m)) (methods c)
  end.

Lemma fit_checked : forallb fit_ok all_classes = true.
Proof. vm_compute. reflexivity. Qed.

Section Reads.
  Context {V : Type} (w : world V) (p q : string -> V).

  Lemma reads_same a l rs :
    (forall x, In x (flat_map (fun r => match r with Par p => [p] | _ => [] end) rs) -> p x = q x) ->
    reads p a l rs = reads q a l rs.
  Proof.
    induction rs as [|r rs IH]; [easy|]. intros H. cbn [reads].
    assert (read p a l r = read q a l r) as ->.
    { destruct r; cbn; try easy. f_equal. apply H. cbn. now left. }
    rewrite IH; [easy|]. intros x I. apply H. cbn [flat_map]. apply in_or_app. now right.
  Qed.

  Lemma eval_same a l e : (forall x, In x (exp_params e) -> p x = q x) -> eval w p a l e = eval w q a l e.
  Proof. destruct e as [n rs|n rs]; cbn; intros H; now rewrite (reads_same a l rs H). Qed.

  Lemma exec_same s : (forall x, In x (stmt_params s) -> p x = q x) ->
    forall a l, exec w p s a l = exec w q s a l.
  Proof.
    induction s as [|s IHs t IHt|x e|x e|e s IHs t IHt|x e b IHb|x|ns|e]; cbn [stmt_params]; intros H a l; cbn [exec].
    - easy.
    - rewrite IHs by (intros x I; apply H, in_or_app; now left).
      destruct (exec w q s a l) as [[a' l'] []]; try easy.
      apply IHt. intros x I; apply H, in_or_app; now right.
    - now rewrite (eval_same a l e H).
    - now rewrite (eval_same a l e H).
    - rewrite (eval_same a l e) by (intros x I; apply H, in_or_app; now left).
      destruct (eval w q a l e) as [v|]; [|easy]. destruct (truth w v).
      + apply IHs. intros x I; apply H, in_or_app; right; apply in_or_app; now left.
      + apply IHt. intros x I; apply H, in_or_app; right; apply in_or_app; now right.
    - rewrite (eval_same a l e) by (intros y I; apply H, in_or_app; now left).
      destruct (eval w q a l e) as [v|]; [|easy].
      assert (K : forall a l, exec w p b a l = exec w q b a l)
        by (apply IHb; intros y I; apply H, in_or_app; now right).
      revert a l. induction (items w v) as [|u us IHu]; intros a l; [easy|]. rewrite K.
      destruct (exec w q b a (set l x u)) as [[a' l'] []]; first [easy|apply IHu].
    - easy.
    - easy.
    - now rewrite (eval_same a l e H).
  Qed.
End Reads.

(** For each of the 51 estimators, fit and the other methods - whether they return
    or raise - bind no attribute with the name of a constructor parameter, and what
    they do depends on the parameters of the constructor only. *)
Theorem methods_leave_the_parameters_alone c m : In c all_classes -> m = c_fit c \/ In m (map snd (c_meths c)) ->
  exists k, In k CtorModel.classes /\ CtorTypes.c_name k = c_name c /\
  (forall (V : Type) (w : world V) par a l a' l' o p,
     exec w par m a l = (a', l', o) -> In p (map fst (CtorTypes.c_params k)) -> get a' p = get a p) /\
  (forall (V : Type) (w : world V) par par' a l,
     (forall p, In p (map fst (CtorTypes.c_params k)) -> par p = par' p) ->
     exec w par m a l = exec w par' m a l).
Proof.
  intros I M. pose proof fit_checked as H. rewrite forallb_forall in H. specialize (H c I).
  unfold fit_ok, params_of in H.
  destruct (find _ _) as [k|] eqn:F; [|discriminate]. apply find_some in F as [F1 F2].
  apply String.eqb_eq in F2. exists k. split; [easy|]. split; [easy|].
  rewrite forallb_forall in H. assert (J : In m (methods c)) by (destruct M as [->|M]; [now left|now right]).
  apply H, andb_true_iff in J as [J1 J2]. rewrite forallb_forall in J1, J2. split.
  - intros V w par a l a' l' o p E Ip. apply frame in E as (E & _). apply E. intros X.
    apply J1 in X. apply CtorThms.mem_In in Ip. now rewrite Ip in X.
  - intros V w par par' a l P. apply exec_same. intros x X. apply P, CtorThms.mem_In. now apply J2.
Qed.
Print Assumptions methods_leave_the_parameters_alone.

Example ex_fit_class : In FitModel.Scaler all_classes /\ params_of "Scaler" = Some ["metric"; "metric_params"; "function"; "n_jobs"].
Proof. split; [cbn; tauto|reflexivity]. Qed.
