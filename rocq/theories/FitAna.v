(* Static analyses of the programs of FitModel.v and their soundness. *)
From Coq Require Import List String Bool.
From Verif Require Import Np FitTypes FitSpec.
Import ListNotations.
Open Scope string_scope.
Open Scope list_scope.

Definition mem (x : string) (l : list string) : bool := existsb (String.eqb x) l.
Definition inter (l m : list string) : list string := filter (fun x => mem x m) l.
Definition diff (l m : list string) : list string := filter (fun x => negb (mem x m)) l.
Definition disj (l m : list string) : bool := forallb (fun x => negb (mem x m)) l.

Lemma mem_In x l : mem x l = true <-> In x l.
Proof.
  unfold mem. rewrite existsb_exists. split.
  - intros (y & H & E). apply String.eqb_eq in E. subst; auto.
  - intros H. exists x. split; auto. apply String.eqb_refl.
Qed.
Lemma mem_nIn x l : mem x l = false <-> ~ In x l.
Proof. rewrite <- mem_In. destruct (mem x l); split; congruence. Qed.
Lemma In_inter x l m : In x (inter l m) <-> In x l /\ In x m.
Proof. unfold inter. rewrite filter_In, mem_In. tauto. Qed.
Lemma In_diff x l m : In x (diff l m) <-> In x l /\ ~ In x m.
Proof. unfold diff. rewrite filter_In. rewrite negb_true_iff, mem_nIn. tauto. Qed.
Lemma disj_spec l m : disj l m = true <-> (forall x, In x l -> ~ In x m).
Proof.
  unfold disj. rewrite forallb_forall. split; intros H x Hx.
  - apply H in Hx. apply negb_true_iff, mem_nIn in Hx; auto.
  - apply negb_true_iff, mem_nIn; auto.
Qed.

Lemma get_set {V} (s : store V) x y v : get (set s x v) y = if String.eqb y x then Some v else get s y.
Proof. reflexivity. Qed.

(* --- definite assignment ------------------------------------------------- *)

Definition e_reads (e : exp) : list src := match e with May _ r => r | Tot _ r => r end.
Definition e_total (e : exp) : bool := match e with May _ _ => false | Tot _ _ => true end.

Definition r_ok (A L : list string) (r : src) : bool :=
  match r with Par _ => true | Att a => mem a A | Loc x => mem x L end.
Definition e_ok (A L : list string) (e : exp) : bool := forallb (r_ok A L) (e_reads e).

Definition flow := option (list string * list string).   (* None: not reached *)

Definition merge (f g : flow) : flow :=
  match f, g with
  | None, g => g
  | f, None => f
  | Some (A, L), Some (A', L') => Some (inter A A', inter L L')
  end.

(* [da F s A L]: None if [s] may read something that is not certainly assigned;
   else what is certainly assigned at the end, and at the returns.  [F]: names
   known to be bound to some value, for check_is_fitted. *)
Fixpoint da (F : list string) (s : stmt) (A L : list string) : option (flow * flow) :=
  match s with
  | Skip => Some (Some (A, L), None)
  | Seq s t =>
      match da F s A L with
      | None => None
      | Some (None, r) => Some (None, r)
      | Some (Some (A', L'), r) =>
          match da F t A' L' with
          | None => None
          | Some (n, r') => Some (n, merge r r')
          end
      end
  | Let x e => if e_ok A L e then Some (Some (A, x :: L), None) else None
  | SetA a e => if e_ok A L e then Some (Some (a :: A, L), None) else None
  | If e s t =>
      if e_ok A L e then
        match da F s A L, da F t A L with
        | Some (n, r), Some (n', r') => Some (merge n n', merge r r')
        | _, _ => None
        end
      else None
  | For x e b =>
      if e_ok A L e then
        match da F b A (x :: L) with
        | Some (_, r) => Some (Some (A, L), r)
        | None => None
        end
      else None
  | Raise _ => Some (None, None)
  | Fitted None => if existsb fitted_name (F ++ A) then Some (Some (A, L), None) else None
  | Fitted (Some ns) => if forallb (fun n => mem n (F ++ A)) ns then Some (Some (A, L), None) else None
  | Return e => if e_ok A L e then Some (None, Some (A, L)) else None
  end.

Definition inF (f : flow) (P Q : string -> Prop) : Prop :=
  match f with None => False | Some (A, L) => (forall x, In x A -> P x) /\ (forall x, In x L -> Q x) end.

Section Two.
  Context {V : Type} (w : world V) (par : string -> V).

  (* the names bound to the same value in both stores *)
  Definition same (s t : store V) (x : string) : Prop := exists v, get s x = Some v /\ get t x = Some v.

  Lemma same_set s t x v y : same s t y -> same (set s x v) (set t x v) y.
  Proof.
    intros (u & H1 & H2). unfold same. rewrite !get_set. destruct (String.eqb y x); [exists v|exists u]; auto.
  Qed.
  Lemma same_set_eq s t x v : same (set s x v) (set t x v) x.
  Proof. unfold same. rewrite !get_set, String.eqb_refl. eauto. Qed.

  Lemma reads_same A L a1 a2 l1 l2 rs :
    forallb (r_ok A L) rs = true ->
    (forall x, In x A -> same a1 a2 x) -> (forall x, In x L -> same l1 l2 x) ->
    exists vs, reads par a1 l1 rs = Ok vs /\ reads par a2 l2 rs = Ok vs.
  Proof.
    induction rs as [|r rs IH]; simpl; intros H HA HL; [eauto|].
    apply andb_true_iff in H. destruct H as [Hr H].
    destruct (IH H HA HL) as (vs & E1 & E2).
    destruct r as [p|x|x]; simpl in *.
    - rewrite E1, E2. eauto.
    - apply mem_In in Hr. destruct (HA x Hr) as (v & G1 & G2). rewrite G1, G2, E1, E2. eauto.
    - apply mem_In in Hr. destruct (HL x Hr) as (v & G1 & G2). rewrite G1, G2, E1, E2. eauto.
  Qed.

  Lemma eval_same A L a1 a2 l1 l2 e :
    e_ok A L e = true ->
    (forall x, In x A -> same a1 a2 x) -> (forall x, In x L -> same l1 l2 x) ->
    eval w par a1 l1 e = eval w par a2 l2 e.
  Proof.
    intros H HA HL. destruct (reads_same A L a1 a2 l1 l2 (e_reads e) H HA HL) as (vs & E1 & E2).
    destruct e; simpl in *; rewrite E1, E2; auto.
  Qed.

  Definition bound (s : store V) (x : string) : Prop := exists v, get s x = Some v.

  Lemma bound_set (s : store V) x v y : bound s y -> bound (set s x v) y.
  Proof. intros [u H]. unfold bound. rewrite get_set. destruct (String.eqb y x); eauto. Qed.

  Lemma existsb_bound A (a1 : store V) :
    existsb fitted_name A = true -> (forall x, In x A -> bound a1 x) ->
    check_fitted a1 None = true.
  Proof.
    intros H HA. apply existsb_exists in H. destruct H as (x & Hx & F).
    destruct (HA x Hx) as (v & G). simpl. clear -G F.
    induction a1 as [|[y u] t IH]; simpl in *; [discriminate|].
    destruct (String.eqb x y) eqn:E.
    - apply String.eqb_eq in E. subst. rewrite F. auto.
    - rewrite (IH G). apply orb_true_r.
  Qed.

  Lemma same_sym a1 a2 x : same a1 a2 x -> same a2 a1 x.
  Proof. intros (v & H1 & H2). exists v; auto. Qed.

  Definition ends (n r : flow) (o : outcome V) (a1 a2 l1 l2 : store V) : Prop :=
    match o with
    | Next => inF n (same a1 a2) (same l1 l2)
    | Done _ => inF r (same a1 a2) (fun _ => True)
    | Fail _ => True
    end.

  Lemma inF_merge_l f g P Q : inF f P Q -> inF (merge f g) P Q.
  Proof.
    destruct f as [[A L]|]; simpl; [|tauto]. destruct g as [[A' L']|]; simpl; auto.
    intros [H1 H2]. split; intros x Hx; apply In_inter in Hx; destruct Hx; auto.
  Qed.
  Lemma inF_merge_r f g P Q : inF g P Q -> inF (merge f g) P Q.
  Proof.
    destruct g as [[A L]|]; simpl; [|tauto]. destruct f as [[A' L']|]; simpl; auto.
    intros [H1 H2]. split; intros x Hx; apply In_inter in Hx; destruct Hx; auto.
  Qed.

  (* two executions from stores that agree on what is read show the same, and
     never stop agreeing on what they agreed on *)
  Lemma da_sound F s : forall A L n r a1 a2 l1 l2,
    da F s A L = Some (n, r) ->
    (forall x, In x F -> bound a1 x /\ bound a2 x) ->
    (forall x, In x A -> same a1 a2 x) -> (forall x, In x L -> same l1 l2 x) ->
    exists a1' a2' l1' l2' o,
      exec w par s a1 l1 = (a1', l1', o) /\ exec w par s a2 l2 = (a2', l2', o) /\
      (forall x, bound a1 x -> bound a1' x) /\ (forall x, bound a2 x -> bound a2' x) /\
      (forall x, same a1 a2 x -> same a1' a2' x) /\ (forall x, same l1 l2 x -> same l1' l2' x) /\
      ends n r o a1' a2' l1' l2'.
  Proof.
    induction s as [|s IHs t IHt|x e|x e|e s IHs t IHt|x e b IHb|x|ns|e];
      intros A L n r a1 a2 l1 l2 D HF HA HL; simpl in D.
    - inversion D; subst. exists a1, a2, l1, l2, Next. simpl. repeat split; auto.
    - destruct (da F s A L) as [[ns rs]|] eqn:Ds; [|discriminate].
      destruct (IHs A L ns rs a1 a2 l1 l2 Ds HF HA HL) as (b1 & b2 & m1 & m2 & o & E1 & E2 & KF1 & KF2 & KA & KL & En).
      simpl. rewrite E1, E2.
      destruct ns as [[A' L']|].
      + destruct (da F t A' L') as [[nt rt]|] eqn:Dt; [|discriminate]. inversion D; subst.
        destruct o as [|v|x].
        * simpl in En. destruct En as [EA EL].
          destruct (IHt A' L' n rt b1 b2 m1 m2 Dt (fun x Hx => conj (KF1 x (proj1 (HF x Hx))) (KF2 x (proj2 (HF x Hx)))) EA EL) as (c1 & c2 & k1 & k2 & o & F1 & F2 & KG1 & KG2 & KA' & KL' & En').
          exists c1, c2, k1, k2, o. rewrite F1, F2. repeat split; auto.
          destruct o; simpl in *; auto. apply inF_merge_r; auto.
        * exists b1, b2, m1, m2, (Done v). repeat split; auto. simpl in *. apply inF_merge_l; auto.
        * exists b1, b2, m1, m2, (Fail x). repeat split; auto.
      + inversion D; subst. destruct o as [|v|x]; [simpl in En; tauto| |].
        * exists b1, b2, m1, m2, (Done v). repeat split; auto.
        * exists b1, b2, m1, m2, (Fail x). repeat split; auto.
    - destruct (e_ok A L e) eqn:K; [|discriminate]. inversion D; subst. simpl.
      rewrite <- (eval_same A L a1 a2 l1 l2 e K HA HL).
      destruct (eval w par a1 l1 e) as [v|x'].
      + exists a1, a2, (set l1 x v), (set l2 x v), Next. repeat split; auto.
        * intros y. apply same_set.
        * simpl. intros y [<-|Hy]; [apply same_set_eq|apply same_set; auto].
      + exists a1, a2, l1, l2, (Fail x'). simpl. repeat split; auto.
    - destruct (e_ok A L e) eqn:K; [|discriminate]. inversion D; subst. simpl.
      rewrite <- (eval_same A L a1 a2 l1 l2 e K HA HL).
      destruct (eval w par a1 l1 e) as [v|x'].
      + exists (set a1 x v), (set a2 x v), l1, l2, Next. repeat split; auto.
        * intros y. apply bound_set.
        * intros y. apply bound_set.
        * intros y. apply same_set.
        * simpl. intros y [<-|Hy]; [apply same_set_eq|apply same_set; auto].
      + exists a1, a2, l1, l2, (Fail x'). simpl. repeat split; auto.
    - destruct (e_ok A L e) eqn:K; [|discriminate].
      destruct (da F s A L) as [[ns rs]|] eqn:Ds; [|discriminate].
      destruct (da F t A L) as [[nt rt]|] eqn:Dt; [|discriminate]. inversion D; subst. simpl.
      rewrite <- (eval_same A L a1 a2 l1 l2 e K HA HL).
      destruct (eval w par a1 l1 e) as [v|x'].
      + destruct (truth w v).
        * destruct (IHs A L ns rs a1 a2 l1 l2 Ds HF HA HL) as (b1 & b2 & m1 & m2 & o & E1 & E2 & KF1 & KF2 & KA & KL & En).
          exists b1, b2, m1, m2, o. repeat split; auto.
          destruct o; simpl in *; auto; apply inF_merge_l; auto.
        * destruct (IHt A L nt rt a1 a2 l1 l2 Dt HF HA HL) as (b1 & b2 & m1 & m2 & o & E1 & E2 & KF1 & KF2 & KA & KL & En).
          exists b1, b2, m1, m2, o. repeat split; auto.
          destruct o; simpl in *; auto; apply inF_merge_r; auto.
      + exists a1, a2, l1, l2, (Fail x'). simpl. repeat split; auto.
    - destruct (e_ok A L e) eqn:K; [|discriminate].
      destruct (da F b A (x :: L)) as [[nb rb]|] eqn:Db; [|discriminate]. inversion D; subst. simpl.
      rewrite <- (eval_same A L a1 a2 l1 l2 e K HA HL).
      destruct (eval w par a1 l1 e) as [v|x'].
      + clear K. revert a1 a2 l1 l2 HF HA HL.
        induction (items w v) as [|u us IH]; intros a1 a2 l1 l2 HF HA HL.
        * exists a1, a2, l1, l2, Next. simpl. repeat split; auto.
        * destruct (IHb A (x :: L) nb r a1 a2 (set l1 x u) (set l2 x u) Db HF HA)
            as (b1 & b2 & m1 & m2 & o & E1 & E2 & KF1 & KF2 & KA & KL & En).
          { intros y [<-|Hy]; [apply same_set_eq|apply same_set; auto]. }
          rewrite E1, E2. destruct o as [|v'|x'].
          -- assert (KL' : forall y, same l1 l2 y -> same m1 m2 y)
               by (intros y Hy; apply KL, same_set; auto).
             destruct (IH b1 b2 m1 m2) as (c1 & c2 & k1 & k2 & o & F1 & F2 & KG1 & KG2 & KA2 & KL2 & En2); auto.
             { intros y Hy. destruct (HF y Hy); auto. }
             exists c1, c2, k1, k2, o. repeat split; auto.
          -- exists b1, b2, m1, m2, (Done v'). repeat split; auto.
             intros y Hy. apply KL, same_set; auto.
          -- exists b1, b2, m1, m2, (Fail x'). repeat split; auto.
             intros y Hy. apply KL, same_set; auto.
      + exists a1, a2, l1, l2, (Fail x'). simpl. repeat split; auto.
    - inversion D; subst. exists a1, a2, l1, l2, (Fail x). simpl. repeat split; auto.
    - assert (C : check_fitted a1 ns = true /\ check_fitted a2 ns = true /\ n = Some (A, L) /\ r = None).
      { assert (BF : forall y, In y (F ++ A) -> bound a1 y /\ bound a2 y).
        { intros y Hy. apply in_app_iff in Hy. destruct Hy as [Hy|Hy]; [auto|].
          destruct (HA y Hy) as (v & G1 & G2). split; exists v; auto. }
        destruct ns as [ns|].
        - destruct (forallb (fun n => mem n (F ++ A)) ns) eqn:K; [|discriminate]. inversion D; subst.
          rewrite forallb_forall in K.
          repeat split; simpl; apply forallb_forall; intros y Hy;
            specialize (K y Hy); apply mem_In in K; destruct (BF y K) as [[v1 G1] [v2 G2]];
            [rewrite G1|rewrite G2]; auto.
        - destruct (existsb fitted_name (F ++ A)) eqn:K; [|discriminate]. inversion D; subst.
          repeat split; apply (existsb_bound (F ++ A)); auto; intros y Hy; apply BF; auto. }
      destruct C as (C1 & C2 & -> & ->). simpl. rewrite C1, C2.
      exists a1, a2, l1, l2, Next. simpl. repeat split; auto.
    - destruct (e_ok A L e) eqn:K; [|discriminate]. inversion D; subst. simpl.
      rewrite <- (eval_same A L a1 a2 l1 l2 e K HA HL).
      destruct (eval w par a1 l1 e) as [v|x'].
      + exists a1, a2, l1, l2, (Done v). simpl. repeat split; auto.
      + exists a1, a2, l1, l2, (Fail x'). simpl. repeat split; auto.
  Qed.
End Two.

(* --- what a program writes ------------------------------------------------ *)

Fixpoint writes (s : stmt) : list string :=
  match s with
  | Seq s t | If _ s t => writes s ++ writes t
  | SetA a _ => [a]
  | For _ _ b => writes b
  | _ => []
  end.

Fixpoint lwrites (s : stmt) : list string :=
  match s with
  | Seq s t | If _ s t => lwrites s ++ lwrites t
  | Let x _ => [x]
  | For x _ b => x :: lwrites b
  | _ => []
  end.

Section One.
  Context {V : Type} (w : world V) (par : string -> V).

  Lemma frame s : forall a l a' l' o, exec w par s a l = (a', l', o) ->
    (forall x, ~ In x (writes s) -> get a' x = get a x) /\
    (forall x, ~ In x (lwrites s) -> get l' x = get l x) /\
    (forall p, In p a' -> In p a \/ In (fst p) (writes s)).
  Proof.
    induction s as [|s IHs t IHt|x e|x e|e s IHs t IHt|x e b IHb|x|ns|e]; simpl; intros a l a' l' o H.
    - inversion H; subst; auto.
    - destruct (exec w par s a l) as [[b m] os] eqn:E. destruct (IHs _ _ _ _ _ E) as (F1 & F2 & F3).
      destruct os as [|v|x].
      + destruct (IHt _ _ _ _ _ H) as (G1 & G2 & G3). split; [|split].
        * intros x Hx. rewrite in_app_iff in Hx. rewrite G1, F1; tauto.
        * intros x Hx. rewrite in_app_iff in Hx. rewrite G2, F2; tauto.
        * intros p Hp. rewrite in_app_iff. destruct (G3 p Hp) as [K|K]; [destruct (F3 p K)|]; tauto.
      + inversion H; subst. split; [|split].
        * intros y Hy. rewrite in_app_iff in Hy. rewrite F1; tauto.
        * intros y Hy. rewrite in_app_iff in Hy. rewrite F2; tauto.
        * intros p Hp. rewrite in_app_iff. destruct (F3 p Hp); tauto.
      + inversion H; subst. split; [|split].
        * intros y Hy. rewrite in_app_iff in Hy. rewrite F1; tauto.
        * intros y Hy. rewrite in_app_iff in Hy. rewrite F2; tauto.
        * intros p Hp. rewrite in_app_iff. destruct (F3 p Hp); tauto.
    - destruct (eval w par a l e); inversion H; subst; auto. split; [|split]; auto.
      intros y Hy. rewrite get_set. destruct (String.eqb y x) eqn:E; auto.
      apply String.eqb_eq in E. subst. simpl in Hy. tauto.
    - destruct (eval w par a l e); inversion H; subst; auto. split; [|split]; auto.
      + intros y Hy. rewrite get_set. destruct (String.eqb y x) eqn:E; auto.
        apply String.eqb_eq in E. subst. simpl in Hy. tauto.
      + intros p [<-|Hp]; simpl; auto.
    - destruct (eval w par a l e) as [v|x].
      + destruct (truth w v).
        * destruct (IHs _ _ _ _ _ H) as (F1 & F2 & F3). split; [|split].
          -- intros y Hy. rewrite in_app_iff in Hy. apply F1; tauto.
          -- intros y Hy. rewrite in_app_iff in Hy. apply F2; tauto.
          -- intros p Hp. rewrite in_app_iff. destruct (F3 p Hp); tauto.
        * destruct (IHt _ _ _ _ _ H) as (F1 & F2 & F3). split; [|split].
          -- intros y Hy. rewrite in_app_iff in Hy. apply F1; tauto.
          -- intros y Hy. rewrite in_app_iff in Hy. apply F2; tauto.
          -- intros p Hp. rewrite in_app_iff. destruct (F3 p Hp); tauto.
      + inversion H; subst; auto.
    - destruct (eval w par a l e) as [v|y]; [|inversion H; subst; auto].
      revert a l H. induction (items w v) as [|u us IH]; intros a l H.
      + inversion H; subst; auto.
      + destruct (exec w par b a (set l x u)) as [[c m] oc] eqn:E.
        destruct (IHb _ _ _ _ _ E) as (F1 & F2 & F3).
        assert (F2' : forall y, ~ (x = y \/ In y (lwrites b)) -> get m y = get l y).
        { intros y Hy. rewrite F2, get_set by tauto. destruct (String.eqb y x) eqn:Q; auto.
          apply String.eqb_eq in Q. subst. tauto. }
        destruct oc.
        * destruct (IH _ _ H) as (G1 & G2 & G3). split; [|split].
          -- intros y Hy. rewrite G1, F1; auto.
          -- intros y Hy. rewrite G2, F2'; auto.
          -- intros p Hp. destruct (G3 p Hp); auto.
        * inversion H; subst. auto.
        * inversion H; subst. auto.
    - inversion H; subst; auto.
    - destruct (check_fitted a ns); inversion H; subst; auto.
    - destruct (eval w par a l e); inversion H; subst; auto.
  Qed.

  Lemma bound_same (s : store V) x : bound s x <-> same s s x.
  Proof using Type. clear w par. unfold bound, same. split; intros [v H]; exists v; tauto. Qed.

  (* the definite-assignment analysis, for one execution *)
  Lemma da_bound s A L n r a l a' l' o :
    da [] s A L = Some (n, r) ->
    (forall x, In x A -> bound a x) -> (forall x, In x L -> bound l x) ->
    exec w par s a l = (a', l', o) ->
    (forall x, bound a x -> bound a' x) /\ (forall x, bound l x -> bound l' x) /\
    match o with
    | Next => inF n (bound a') (bound l')
    | Done _ => inF r (bound a') (fun _ => True)
    | Fail _ => True
    end.
  Proof.
    intros D HA HL E.
    destruct (da_sound w par [] s A L n r a a l l D) as (a1 & a2 & l1 & l2 & o' & E1 & E2 & KF1 & KF2 & KA & KL & En).
    { simpl. tauto. }
    { intros x Hx. apply bound_same; auto. }
    { intros x Hx. apply bound_same; auto. }
    rewrite E in E1, E2. inversion E1; inversion E2; subst. split; [|split].
    - intros x. rewrite !bound_same. auto.
    - intros x. rewrite !bound_same. auto.
    - destruct o'; simpl in *; auto.
      + destruct n as [[A' L']|]; simpl in *; auto. destruct En as [H1 H2].
        split; intros x Hx; apply bound_same; auto.
      + destruct r as [[A' L']|]; simpl in *; auto. destruct En as [H1 H2].
        split; intros x Hx; auto. apply bound_same; auto.
  Qed.

  Lemma eval_total A L a l e :
    e_ok A L e = true -> e_total e = true ->
    (forall x, In x A -> bound a x) -> (forall x, In x L -> bound l x) ->
    exists v, eval w par a l e = Ok v.
  Proof.
    intros K T HA HL. destruct (reads_same par A L a a l l (e_reads e) K) as (vs & E & _).
    { intros x Hx. apply bound_same; auto. }
    { intros x Hx. apply bound_same; auto. }
    destruct e; simpl in *; [discriminate|]. rewrite E. eauto.
  Qed.
End One.

(* --- no exception after a write to [R] ----------------------------------- *)

Section Ua.
  Variable R : list string.

  Definition quiet (e : exp) (d : bool) : bool := e_total e || negb d.

  (* [ua s A L d]: None if [s] may raise after a write to an attribute of [R]
     ([d]: such a write may have happened before [s]); else whether such a write
     may have happened by the end *)
  Fixpoint ua (s : stmt) (A L : list string) (d : bool) : option bool :=
    match s with
    | Skip => Some d
    | Seq s t =>
        match da [] s A L with
        | Some (Some (A', L'), _) =>
            match ua s A L d with Some d' => ua t A' L' d' | None => None end
        | _ => ua s A L d
        end
    | Let _ e => if quiet e d then Some d else None
    | SetA a e => if quiet e d then Some (d || mem a R) else None
    | If e s t =>
        if quiet e d then
          match ua s A L d, ua t A L d with
          | Some d1, Some d2 => Some (d1 || d2)
          | _, _ => None
          end
        else None
    | For x e b =>
        if quiet e d then
          let d' := d || negb (disj (writes b) R) in
          match ua b A (x :: L) d' with
          | Some d'' => if d'' && negb d' then None else Some d'
          | None => None
          end
        else None
    | Raise _ => if d then None else Some false
    | Fitted _ => if d then None else Some false
    | Return e => if quiet e d then Some d else None
    end.

  Context {V : Type} (w : world V) (par : string -> V).

  Definition agree (a0 a : store V) : Prop := forall x, In x R -> get a x = get a0 x.

  Lemma ua_sound a0 s : forall A L n r d d' a l a' l' o,
    da [] s A L = Some (n, r) -> ua s A L d = Some d' ->
    (forall x, In x A -> bound a x) -> (forall x, In x L -> bound l x) ->
    (d = false -> agree a0 a) ->
    exec w par s a l = (a', l', o) ->
    match o with Fail _ => agree a0 a' | _ => d' = false -> agree a0 a' end.
  Proof.
    induction s as [|s IHs t IHt|x e|x e|e s IHs t IHt|x e b IHb|x|ns|e];
      simpl; intros A L n r d d' a l a' l' o D U HA HL Hd E.
    - inversion E; inversion U; subst; auto.
    - destruct (da [] s A L) as [[nn rr]|] eqn:Ds; [|discriminate].
      destruct (exec w par s a l) as [[c m] oc] eqn:Es.
      destruct nn as [[A' L']|].
      + destruct (ua s A L d) as [d1|] eqn:Us; [|discriminate].
        destruct (da [] t A' L') as [[n' r']|] eqn:Dt; [|discriminate].
        pose proof (IHs _ _ _ _ _ _ _ _ _ _ _ Ds Us HA HL Hd Es) as K.
        pose proof (da_bound w par s A L _ _ _ _ _ _ _ Ds HA HL Es) as (B1 & B2 & B3).
        destruct oc as [|v|x].
        * destruct B3 as [B3 B4]. eapply IHt; eauto.
        * inversion E; subst. clear IHt IHs.
          (* after a return the flag can only have grown *)
          assert (G : forall s A L d d', ua s A L d = Some d' -> d' = false ->
                      (exists n r, da [] s A L = Some (n, r)) -> d = false).
          { clear. induction s as [|s IHs t IHt|x e|x e|e s IHs t IHt|x e b IHb|x|ns|e];
              simpl; intros A L d d' U F (n & r & D).
            - congruence.
            - destruct (da [] s A L) as [[[[A' L']|] rr]|] eqn:Ds; [| |discriminate].
              + destruct (ua s A L d) as [d1|] eqn:Us; [|discriminate].
                destruct (da [] t A' L') as [[n' r']|] eqn:Dt; [|discriminate].
                eapply IHs; eauto.
              + eapply IHs; eauto.
            - destruct (quiet e d); congruence.
            - destruct (quiet e d); [|discriminate]. inversion U; subst. destruct d; simpl in *; auto.
            - destruct (quiet e d); [|discriminate].
              destruct (ua s A L d) as [d1|] eqn:Us; [|discriminate].
              destruct (ua t A L d) as [d2|] eqn:Ut; [|discriminate].
              destruct (e_ok A L e); [|discriminate].
              destruct (da [] s A L) as [[n1 r1]|] eqn:Ds; [|discriminate].
              inversion U; subst. apply orb_false_iff in H0. destruct H0; subst. eapply IHs; eauto.
            - destruct (quiet e d); [|discriminate].
              destruct (ua b A (x :: L) (d || negb (disj (writes b) R))) as [d1|]; [|discriminate].
              destruct (d1 && negb (d || negb (disj (writes b) R))); [discriminate|].
              inversion U; subst. apply orb_false_iff in H0. tauto.
            - destruct d; congruence.
            - destruct d; congruence.
            - destruct (quiet e d); congruence. }
          intros F. apply K. eapply G; eauto.
        * inversion E; subst. exact K.
      + pose proof (IHs _ _ _ _ _ _ _ _ _ _ _ Ds U HA HL Hd Es) as K.
        pose proof (da_bound w par s A L _ _ _ _ _ _ _ Ds HA HL Es) as (B1 & B2 & B3).
        destruct oc as [|v|x]; [simpl in B3; tauto| |]; inversion E; subst; auto.
    - destruct (e_ok A L e) eqn:K; [|discriminate].
      destruct (quiet e d) eqn:Q; [|discriminate]. inversion U; subst.
      destruct (eval w par a l e) as [v|x'] eqn:Ev; inversion E; subst; auto.
      unfold quiet in Q. apply orb_true_iff in Q. destruct Q as [Q|Q].
      + destruct (eval_total w par A L a' l' e K Q HA HL) as (v & Hv). congruence.
      + apply Hd. destruct d'; auto.
    - destruct (e_ok A L e) eqn:K; [|discriminate].
      destruct (quiet e d) eqn:Q; [|discriminate]. inversion U; subst.
      destruct (eval w par a l e) as [v|x'] eqn:Ev; inversion E; subst.
      + intros F. apply orb_false_iff in F. destruct F as [F1 F2]. intros y Hy. rewrite get_set.
        destruct (String.eqb y x) eqn:Eq; [|apply Hd; auto].
        apply String.eqb_eq in Eq. subst. apply mem_nIn in F2. tauto.
      + unfold quiet in Q. apply orb_true_iff in Q. destruct Q as [Q|Q].
        * destruct (eval_total w par A L a' l' e K Q HA HL) as (v & Hv). congruence.
        * apply Hd. destruct d; auto.
    - destruct (e_ok A L e) eqn:K; [|discriminate].
      destruct (da [] s A L) as [[n1 r1]|] eqn:Ds; [|discriminate].
      destruct (da [] t A L) as [[n2 r2]|] eqn:Dt; [|discriminate].
      destruct (quiet e d) eqn:Q; [|discriminate].
      destruct (ua s A L d) as [d1|] eqn:Us; [|discriminate].
      destruct (ua t A L d) as [d2|] eqn:Ut; [|discriminate]. inversion U; subst.
      destruct (eval w par a l e) as [v|x'] eqn:Ev.
      + destruct (truth w v).
        * pose proof (IHs _ _ _ _ _ _ _ _ _ _ _ Ds Us HA HL Hd E) as P.
          destruct o; auto; intros F; apply orb_false_iff in F; tauto.
        * pose proof (IHt _ _ _ _ _ _ _ _ _ _ _ Dt Ut HA HL Hd E) as P.
          destruct o; auto; intros F; apply orb_false_iff in F; tauto.
      + inversion E; subst. unfold quiet in Q. apply orb_true_iff in Q. destruct Q as [Q|Q].
        * destruct (eval_total w par A L a' l' e K Q HA HL) as (v & Hv). congruence.
        * apply Hd. destruct d; auto.
    - destruct (e_ok A L e) eqn:K; [|discriminate].
      destruct (da [] b A (x :: L)) as [[nb rb]|] eqn:Db; [|discriminate].
      destruct (quiet e d) eqn:Q; [|discriminate].
      set (d1 := d || negb (disj (writes b) R)) in *.
      destruct (ua b A (x :: L) d1) as [d2|] eqn:Ub; [|discriminate].
      destruct (d2 && negb d1) eqn:X; [discriminate|]. inversion U; subst d'.
      destruct (eval w par a l e) as [v|x'] eqn:Ev.
      + assert (Hd1 : d1 = false -> agree a0 a).
        { unfold d1. intros F. apply orb_false_iff in F. tauto. }
        clear Hd Q Ev K U D. clearbody d1. revert a l HA HL Hd1 E.
        induction (items w v) as [|u us IH]; intros a l HA HL Hd1 E.
        * inversion E; subst; auto.
        * destruct (exec w par b a (set l x u)) as [[c m] oc] eqn:Eb.
          assert (HL' : forall y, In y (x :: L) -> bound (set l x u) y).
          { intros y Hy. unfold bound. rewrite get_set. destruct (String.eqb y x) eqn:Eq; eauto.
            destruct Hy as [<-|Hy]; [rewrite String.eqb_refl in Eq; discriminate|apply HL; auto]. }
          pose proof (IHb _ _ _ _ _ _ _ _ _ _ _ Db Ub HA HL' Hd1 Eb) as P.
          pose proof (da_bound w par b A (x :: L) _ _ _ _ _ _ _ Db HA HL' Eb) as (B1 & B2 & _).
          assert (P' : (d2 = false -> agree a0 c) -> d1 = false -> agree a0 c).
          { intros G F. apply G. subst. destruct d2; auto. }
          destruct oc.
          -- apply (IH c m); auto. intros y Hy. apply B2, HL'. simpl; auto.
          -- inversion E; subst. auto.
          -- inversion E; subst. auto.
      + inversion E; subst. unfold quiet in Q. apply orb_true_iff in Q. destruct Q as [Q|Q].
        * destruct (eval_total w par A L a' l' e K Q HA HL) as (v & Hv). congruence.
        * apply Hd. destruct d; auto.
    - destruct d; [discriminate|]. inversion E; subst. auto.
    - destruct d; [discriminate|]. destruct (check_fitted a ns); inversion E; subst; auto.
    - destruct (e_ok A L e) eqn:K; [|discriminate].
      destruct (quiet e d) eqn:Q; [|discriminate]. inversion U; subst.
      destruct (eval w par a l e) as [v|x'] eqn:Ev; inversion E; subst; auto.
      unfold quiet in Q. apply orb_true_iff in Q. destruct Q as [Q|Q].
      + destruct (eval_total w par A L a' l' e K Q HA HL) as (v & Hv). congruence.
      + apply Hd. destruct d'; auto.
  Qed.
End Ua.

(* --- two executions with the same hyperparameters and different data ------ *)

(* What is known: certainly assigned ([kA], [kL]); equal in the two executions
   ([qA], [qL]); attributes of [R] written so far ([kD]); whether an attribute
   of [R] may have received a value that depends on the data ([kd]). *)
Record know := { kA : list string; kL : list string; qA : list string; qL : list string;
                 kD : list string; kd : bool }.

Definition kmeet (k m : know) : know :=
  {| kA := inter (kA k) (kA m); kL := inter (kL k) (kL m);
     qA := inter (qA k) (qA m); qL := inter (qL k) (qL m);
     kD := kD k ++ kD m; kd := kd k || kd m |}.

Section Ba.
  Variable R : list string.

  Definition low (k : know) (e : exp) : bool := e_ok (qA k) (qL k) e.
  Definition kok (k : know) (e : exp) : bool := e_ok (kA k) (kL k) e.
  (* an exception is harmless here: [post] is what may be written later *)
  Definition okraise (k : know) (post : list string) : bool := negb (kd k) && disj (kD k) post.

  Definition opaque (s : stmt) (k : know) (post : list string) : option (option know) :=
    match da [] s (kA k) (kL k) with
    | Some (n, None) =>
        if disj (writes s) R && okraise k post then
          match n with
          | None => Some None
          | Some (A', L') =>
              Some (Some {| kA := A'; kL := L'; qA := diff (qA k) (writes s);
                            qL := diff (qL k) (lwrites s); kD := kD k; kd := kd k |})
          end
        else None
    | _ => None
    end.

  Fixpoint ba (s : stmt) (k : know) (post : list string) : option (option know) :=
    match s with
    | Skip => Some (Some k)
    | Seq s t =>
        match ba s k (writes t ++ post) with
        | Some (Some k') => ba t k' post
        | r => r
        end
    | Let x e =>
        if low k e then
          Some (Some {| kA := kA k; kL := x :: kL k; qA := qA k; qL := x :: qL k; kD := kD k; kd := kd k |})
        else if kok k e && (e_total e || okraise k post) then
          Some (Some {| kA := kA k; kL := x :: kL k; qA := qA k; qL := diff (qL k) [x]; kD := kD k; kd := kd k |})
        else None
    | SetA a e =>
        if low k e then
          Some (Some {| kA := a :: kA k; kL := kL k; qA := a :: qA k; qL := qL k;
                        kD := a :: kD k; kd := kd k |})
        else if kok k e && (e_total e || okraise k (a :: post)) then
          Some (Some {| kA := a :: kA k; kL := kL k; qA := diff (qA k) [a]; qL := qL k;
                        kD := kD k; kd := kd k || mem a R |})
        else None
    | If e s t =>
        if low k e then
          match ba s k post, ba t k post with
          | Some None, r => r
          | r, Some None => r
          | Some (Some k1), Some (Some k2) => Some (Some (kmeet k1 k2))
          | _, _ => None
          end
        else opaque (If e s t) k post
    | For x e b => opaque (For x e b) k post
    | Raise _ => Some None
    | Fitted _ => None
    | Return _ => None
    end.

  Context {V : Type} (w : world V) (par : string -> V).

  (* [s1]: the attributes at the end of the first execution, which the second
     one starts from (up to what is not in R) *)
  Definition kinv (s1 : store V) (k : know) (a1 a2 l1 l2 : store V) : Prop :=
    (forall x, In x (kA k) -> bound a1 x /\ bound a2 x) /\
    (forall x, In x (kL k) -> bound l1 x /\ bound l2 x) /\
    (forall x, In x (qA k) -> same a1 a2 x) /\
    (forall x, In x (qL k) -> same l1 l2 x) /\
    (kd k = false -> forall x, In x R ->
       get a2 x = get s1 x \/ (In x (kD k) /\ get a2 x = get a1 x)).

  Definition kraise (s1 : store V) (post : list string) (a1' a2' : store V) : Prop :=
    forall x, In x R -> get a2' x = get s1 x \/ (~ In x post /\ get a2' x = get a1' x).

  Lemma okraise_kraise s1 k post a1 a2 l1 l2 :
    okraise k post = true -> kinv s1 k a1 a2 l1 l2 -> kraise s1 post a1 a2.
  Proof.
    intros O (_ & _ & _ & _ & H) x Hx. apply andb_true_iff in O. destruct O as [O1 O2].
    apply negb_true_iff in O1. rewrite disj_spec in O2.
    destruct (H O1 x Hx) as [G|[G1 G2]]; auto.
  Qed.

  Lemma bound_set_eq (s : store V) x v : bound (set s x v) x.
  Proof. unfold bound. rewrite get_set, String.eqb_refl. eauto. Qed.

  Definition both_end (s1 : store V) (k' : option know) (post : list string)
      (a1' a2' l1' l2' : store V) (o2 : outcome V) : Prop :=
    match o2 with
    | Next => match k' with None => False | Some k' => kinv s1 k' a1' a2' l1' l2' end
    | Done _ => False
    | Fail _ => kraise s1 post a1' a2'
    end.

  Lemma opaque_sound s1 s k post k' a1 a2 l1 l2 a1' l1' :
    opaque s k post = Some k' ->
    kinv s1 k a1 a2 l1 l2 ->
    exec w par s a1 l1 = (a1', l1', Next) ->
    exists a2' l2' o2, exec w par s a2 l2 = (a2', l2', o2) /\ both_end s1 k' post a1' a2' l1' l2' o2.
  Proof.
    unfold opaque. intros O I E1.
    destruct (da [] s (kA k) (kL k)) as [[n [r|]]|] eqn:D; try discriminate.
    destruct (disj (writes s) R && okraise k post) eqn:Q; [|discriminate].
    apply andb_true_iff in Q. destruct Q as [Q1 Q2]. rewrite disj_spec in Q1.
    destruct (exec w par s a2 l2) as [[a2' l2'] o2] eqn:E2. exists a2', l2', o2. split; auto.
    pose proof (okraise_kraise _ _ _ _ _ _ _ Q2 I) as KR.
    destruct I as (IA & IL & JA & JL & JD).
    destruct (frame w par s _ _ _ _ _ E1) as (F1 & F2 & _).
    destruct (frame w par s _ _ _ _ _ E2) as (G1 & G2 & _).
    destruct (da_bound w par s _ _ _ _ _ _ _ _ _ D (fun x Hx => proj1 (IA x Hx)) (fun x Hx => proj1 (IL x Hx)) E1)
      as (B1 & B2 & B3).
    destruct (da_bound w par s _ _ _ _ _ _ _ _ _ D (fun x Hx => proj2 (IA x Hx)) (fun x Hx => proj2 (IL x Hx)) E2)
      as (C1 & C2 & C3).
    assert (NW : forall x, In x R -> ~ In x (writes s)) by (intros x Hx Hw; apply (Q1 x Hw Hx)).
    destruct o2 as [|v|x].
    - simpl. destruct n as [[A' L']|]; simpl in *; [|tauto]. inversion O; subst k'.
      destruct B3 as [B3 B4]. destruct C3 as [C3 C4]. repeat split; simpl; auto.
      + intros x Hx. apply In_diff in Hx. destruct Hx as [H1 H2].
        destruct (JA x H1) as (v & K1 & K2). exists v. rewrite F1, G1; auto.
      + intros x Hx. apply In_diff in Hx. destruct Hx as [H1 H2].
        destruct (JL x H1) as (v & K1 & K2). exists v. rewrite F2, G2; auto.
      + intros Hd x Hx. rewrite F1, G1 by auto. apply JD; auto.
    - simpl in C3. tauto.
    - simpl. intros y Hy. rewrite F1, G1 by auto. apply KR; auto.
  Qed.

  Lemma eval_low k a1 a2 l1 l2 e :
    low k e = true -> (forall x, In x (qA k) -> same a1 a2 x) -> (forall x, In x (qL k) -> same l1 l2 x) ->
    eval w par a1 l1 e = eval w par a2 l2 e.
  Proof. intros. eapply eval_same; eauto. Qed.

  Lemma ba_sound s1 s : forall k post k' a1 a2 l1 l2 a1' l1',
    ba s k post = Some k' ->
    kinv s1 k a1 a2 l1 l2 ->
    exec w par s a1 l1 = (a1', l1', Next) ->
    exists a2' l2' o2, exec w par s a2 l2 = (a2', l2', o2) /\ both_end s1 k' post a1' a2' l1' l2' o2.
  Proof.
    induction s as [|s IHs t IHt|x e|x e|e s IHs t IHt|x e b IHb|x|ns|e];
      intros k post k' a1 a2 l1 l2 a1' l1' B I E1.
    - simpl in *. inversion B; inversion E1; subst. exists a2, l2, Next. auto.
    - simpl in B, E1 |- *. destruct (exec w par s a1 l1) as [[b1 m1] ob] eqn:Es.
      destruct ob; try discriminate.
      destruct (ba s k (writes t ++ post)) as [ks|] eqn:Bs; [|discriminate].
      destruct (IHs _ _ _ _ _ _ _ _ _ Bs I Es) as (b2 & m2 & o2 & Es2 & H). rewrite Es2.
      destruct o2 as [|v|x]; simpl in H.
      + destruct ks as [ks|]; [|tauto]. eapply IHt; eauto.
      + tauto.
      + exists b2, m2, (Fail x). split; auto. simpl. intros y Hy.
        destruct (H y Hy) as [G|[G1 G2]]; auto. rewrite in_app_iff in G1.
        right. split; [tauto|]. rewrite G2. symmetry.
        apply (proj1 (frame w par t _ _ _ _ _ E1)). tauto.
    - simpl in B, E1 |- *. destruct I as (IA & IL & JA & JL & JD).
      destruct (low k e) eqn:Lw.
      + inversion B; subst. rewrite <- (eval_low k a1 a2 l1 l2 e Lw JA JL).
        destruct (eval w par a1 l1 e) as [v|y]; inversion E1; subst.
        exists a2, (set l2 x v), Next. split; auto. simpl. repeat split; simpl; auto.
        * apply IA; auto.
        * apply IA; auto.
        * destruct H as [<-|H]; [apply bound_set_eq|apply bound_set, IL; auto].
        * destruct H as [<-|H]; [apply bound_set_eq|apply bound_set, IL; auto].
        * intros y [<-|Hy]; [apply same_set_eq|apply same_set; auto].
      + destruct (kok k e && (e_total e || okraise k post)) eqn:Q; [|discriminate]. inversion B; subst.
        apply andb_true_iff in Q. destruct Q as [Q1 Q2].
        destruct (eval w par a1 l1 e) as [v1|y]; inversion E1; subst.
        destruct (eval w par a2 l2 e) as [v2|y] eqn:Ev.
        * exists a2, (set l2 x v2), Next. split; auto. simpl. repeat split; simpl; auto.
          -- apply IA; auto.
          -- apply IA; auto.
          -- destruct H as [<-|H]; [apply bound_set_eq|apply bound_set, IL; auto].
          -- destruct H as [<-|H]; [apply bound_set_eq|apply bound_set, IL; auto].
          -- intros y Hy. apply In_diff in Hy. destruct Hy as [H1 H2]. destruct (JL y H1) as (u & K1 & K2).
             exists u. rewrite !get_set. destruct (String.eqb y x) eqn:Eq; auto.
             apply String.eqb_eq in Eq. subst. simpl in H2. tauto.
        * exists a2, l2, (Fail y). split; auto. simpl. apply orb_true_iff in Q2. destruct Q2 as [Q2|Q2].
          -- destruct (eval_total w par (kA k) (kL k) a2 l2 e Q1 Q2 (fun x H => proj2 (IA x H)) (fun x H => proj2 (IL x H)))
               as (v & Hv). congruence.
          -- eapply okraise_kraise; eauto. repeat split; eauto; try apply IA; try apply IL; auto.
    - simpl in B, E1 |- *. destruct I as (IA & IL & JA & JL & JD).
      destruct (low k e) eqn:Lw.
      + inversion B; subst. rewrite <- (eval_low k a1 a2 l1 l2 e Lw JA JL).
        destruct (eval w par a1 l1 e) as [v|y]; inversion E1; subst.
        exists (set a2 x v), l2, Next. split; auto. simpl. repeat split; simpl; auto.
        * destruct H as [<-|H]; [apply bound_set_eq|apply bound_set, IA; auto].
        * destruct H as [<-|H]; [apply bound_set_eq|apply bound_set, IA; auto].
        * apply IL; auto.
        * apply IL; auto.
        * intros y [<-|Hy]; [apply same_set_eq|apply same_set; auto].
        * intros Hd y Hy. try rewrite !get_set. destruct (String.eqb y x) eqn:Eq.
          -- apply String.eqb_eq in Eq. subst. right. auto.
          -- destruct (JD Hd y Hy) as [G|[G1 G2]]; auto.
      + destruct (kok k e && (e_total e || okraise k (x :: post))) eqn:Q; [|discriminate]. inversion B; subst.
        apply andb_true_iff in Q. destruct Q as [Q1 Q2].
        destruct (eval w par a1 l1 e) as [v1|y]; inversion E1; subst.
        destruct (eval w par a2 l2 e) as [v2|y] eqn:Ev.
        * exists (set a2 x v2), l2, Next. split; auto. simpl. repeat split; simpl; auto.
          -- destruct H as [<-|H]; [apply bound_set_eq|apply bound_set, IA; auto].
          -- destruct H as [<-|H]; [apply bound_set_eq|apply bound_set, IA; auto].
          -- apply IL; auto.
          -- apply IL; auto.
          -- intros y Hy. apply In_diff in Hy. destruct Hy as [H1 H2]. destruct (JA y H1) as (u & K1 & K2).
             exists u. rewrite !get_set. destruct (String.eqb y x) eqn:Eq; auto.
             apply String.eqb_eq in Eq. subst. simpl in H2. tauto.
          -- intros Hd y Hy. apply orb_false_iff in Hd. destruct Hd as [Hd1 Hd2]. apply mem_nIn in Hd2.
             try rewrite !get_set. destruct (String.eqb y x) eqn:Eq; auto.
             apply String.eqb_eq in Eq. subst. tauto.
        * exists a2, l2, (Fail y). split; auto. simpl. apply orb_true_iff in Q2. destruct Q2 as [Q2|Q2].
          -- destruct (eval_total w par (kA k) (kL k) a2 l2 e Q1 Q2 (fun x H => proj2 (IA x H)) (fun x H => proj2 (IL x H)))
               as (v & Hv). congruence.
          -- intros z Hz.
             assert (KR : kraise s1 (x :: post) a1 a2).
             { eapply okraise_kraise; eauto. repeat split; eauto; try apply IA; try apply IL; auto. }
             destruct (KR z Hz) as [G|[G1 G2]]; auto. simpl in G1. right. split; [tauto|].
             rewrite get_set. destruct (String.eqb z x) eqn:Eq; auto.
             apply String.eqb_eq in Eq. subst. tauto.
    - simpl in B. destruct (low k e) eqn:Lw; [|eapply opaque_sound; eauto].
      simpl in E1 |- *. pose proof I as (IA & IL & JA & JL & JD).
      rewrite <- (eval_low k a1 a2 l1 l2 e Lw JA JL).
      destruct (eval w par a1 l1 e) as [v|y]; [|discriminate].
      destruct (truth w v).
      + destruct (ba s k post) as [ks|] eqn:Bs; [|destruct (ba t k post) as [[?|]|]; discriminate].
        destruct (IHs _ _ _ _ _ _ _ _ _ Bs I E1) as (b2 & m2 & o2 & E2 & H).
        exists b2, m2, o2. split; auto. destruct o2; simpl in *; auto.
        destruct ks as [ks|]; [|tauto].
        destruct (ba t k post) as [[kt|]|]; inversion B; subst; auto.
        destruct H as (H1 & H2 & H3 & H4 & H5). repeat split; simpl.
        * apply In_inter in H. apply H1; tauto.
        * apply In_inter in H. apply H1; tauto.
        * apply In_inter in H. apply H2; tauto.
        * apply In_inter in H. apply H2; tauto.
        * intros y Hy. apply In_inter in Hy. apply H3; tauto.
        * intros y Hy. apply In_inter in Hy. apply H4; tauto.
        * intros Hd y Hy. apply orb_false_iff in Hd. rewrite in_app_iff.
          destruct (H5 (proj1 Hd) y Hy) as [G|[G1 G2]]; auto.
      + assert (exists kt, ba t k post = Some kt) as [kt Bt].
        { destruct (ba s k post) as [[?|]|]; destruct (ba t k post); try discriminate; eauto. }
        destruct (IHt _ _ _ _ _ _ _ _ _ Bt I E1) as (b2 & m2 & o2 & E2 & H).
        exists b2, m2, o2. split; auto. destruct o2; simpl in *; auto.
        destruct kt as [kt|]; [|tauto]. rewrite Bt in B.
        destruct (ba s k post) as [[ks|]|]; inversion B; subst; auto.
        destruct H as (H1 & H2 & H3 & H4 & H5). repeat split; simpl.
        * apply In_inter in H. apply H1; tauto.
        * apply In_inter in H. apply H1; tauto.
        * apply In_inter in H. apply H2; tauto.
        * apply In_inter in H. apply H2; tauto.
        * intros y Hy. apply In_inter in Hy. apply H3; tauto.
        * intros y Hy. apply In_inter in Hy. apply H4; tauto.
        * intros Hd y Hy. apply orb_false_iff in Hd. rewrite in_app_iff.
          destruct (H5 (proj2 Hd) y Hy) as [G|[G1 G2]]; auto.
    - simpl in B. eapply opaque_sound; eauto.
    - simpl in E1. discriminate.
    - simpl in B. discriminate.
    - simpl in B. discriminate.
  Qed.
End Ba.
