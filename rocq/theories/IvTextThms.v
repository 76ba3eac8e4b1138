(** C98: the texts and hashes of intervals. *)
From Coq Require Import String Ascii.
From Verif Require Import PipeProofs Np NpFacts Fl FlFacts IntervalModel IntervalThms IvTextModel.
Open Scope string_scope.
Open Scope list_scope.
Open Scope Z_scope.

(** ** Specification *)
Fixpoint has_char (c : ascii) (s : string) : Prop :=
  match s with EmptyString => False | String a s => a = c \/ has_char c s end.
(** Texts of numbers: different numbers have different texts, and there is no comma or bracket in them. *)
Definition number_texts (num : fl -> string) : Prop :=
  (forall x y, num x = num y -> x = y) /\ forall x, ~ has_char "," (num x) /\ ~ has_char "]" (num x) /\ ~ has_char ")" (num x).
Definition first_char (s : string) : option ascii := String.get 0 s.
Definition last_char (s : string) : option ascii := String.get (String.length s - 1) s.

Lemma app_assoc_s (a b c : string) : ((a ++ b) ++ c = a ++ b ++ c)%string.
Proof. induction a; cbn; congruence. Qed.
Lemma cut_app c a b : ~ has_char c a -> cut c (a ++ String c b)%string = Some (a, b).
Proof.
  induction a as [|x a IH]; intro N; cbn [append cut].
  - now rewrite Ascii.eqb_refl.
  - cbn in N. destruct (Ascii.eqb_spec x c) as [E|E]; [tauto|]. rewrite IH by tauto. reflexivity.
Qed.
Lemma strip_app p s : strip p (p ++ s)%string = Some s.
Proof. induction p as [|a p IH]; [destruct s; reflexivity|]. cbn [append strip]. now rewrite Ascii.eqb_refl. Qed.
Lemma last_app a c : last_char (a ++ String c "")%string = Some c.
Proof.
  unfold last_char. induction a as [|x a IH]; [reflexivity|]. cbn [append String.length] in *. rewrite Nat.sub_succ, Nat.sub_0_r.
  destruct (a ++ String c "")%string eqn:E; [destruct a; discriminate|]. cbn [String.length] in *. rewrite Nat.sub_succ, Nat.sub_0_r in IH. exact IH.
Qed.
Lemma closed_of_name c : closed_of (closed_name c) = Some c.
Proof. destruct c; reflexivity. Qed.

(** str: the brackets say which ends belong to the interval, and the text determines it. *)
Theorem interval_str_brackets : forall num i, proper i -> ltx (iv_left i) (iv_right i) ->
  (first_char (iv_str num i) = Some "["%char <-> iv_contains i (OReal (iv_left i)) = Ok true) /\
  (first_char (iv_str num i) = Some "("%char <-> iv_contains i (OReal (iv_left i)) = Ok false) /\
  (last_char (iv_str num i) = Some "]"%char <-> iv_contains i (OReal (iv_right i)) = Ok true) /\
  (last_char (iv_str num i) = Some ")"%char <-> iv_contains i (OReal (iv_right i)) = Ok false).
Proof.
  intros num i (Nl & Nr & _) L.
  assert (F1 : flt (iv_left i) (iv_right i) = true) by now apply flt_ltx.
  assert (F2 : fle (iv_left i) (iv_right i) = true) by (apply fle_ltx; auto).
  assert (F3 : fle (iv_left i) (iv_left i) = true) by (apply fle_ltx; auto).
  assert (F4 : fle (iv_right i) (iv_right i) = true) by (apply fle_ltx; auto).
  assert (F5 : flt (iv_left i) (iv_left i) = false) by (destruct (flt (iv_left i) (iv_left i)) eqn:E; auto; apply flt_ltx in E; now apply ltx_irrefl in E).
  assert (F6 : flt (iv_right i) (iv_right i) = false) by (destruct (flt (iv_right i) (iv_right i)) eqn:E; auto; apply flt_ltx in E; now apply ltx_irrefl in E).
  assert (LC : last_char (iv_str num i) = Some (if closed_right i then "]"%char else ")"%char)).
  { unfold iv_str. rewrite <- !app_assoc_s. destruct (closed_right i); apply last_app. }
  assert (FC : first_char (iv_str num i) = Some (if closed_left i then "["%char else "("%char)).
  { unfold iv_str. destruct (closed_left i); reflexivity. }
  rewrite LC, FC. unfold iv_contains, open_left, open_right, closed_left, closed_right in *.
  destruct (iv_closed i); cbn [negb]; rewrite ?F1, ?F2, ?F3, ?F4, ?F5, ?F6; cbn; repeat split; congruence.
Qed.
Theorem interval_str_injective : forall num i j, number_texts num -> iv_str num i = iv_str num j -> i = j.
Proof.
  intros num i j [INJ NC] E. unfold iv_str in E.
  assert (F := f_equal first_char E). assert (CL : closed_left i = closed_left j).
  { destruct (closed_left i), (closed_left j); auto; cbn in F; discriminate. }
  rewrite CL in E. clear F. assert (E' : (num (iv_left i) ++ String "," (" " ++ num (iv_right i) ++ (if closed_right i then "]" else ")")) =
    num (iv_left j) ++ String "," (" " ++ num (iv_right j) ++ (if closed_right j then "]" else ")")))%string).
  { destruct (closed_left j); cbn [append] in E; injection E as E; exact E. }
  apply (f_equal (cut ",")) in E'. rewrite !cut_app in E' by apply NC. injection E' as E1 E2. apply INJ in E1.
  assert (L := f_equal last_char E2). assert (CR : closed_right i = closed_right j).
  { destruct (closed_right i), (closed_right j); auto; rewrite !last_app in L; discriminate. }
  rewrite CR in E2. assert (R : num (iv_right i) = num (iv_right j)).
  { destruct (closed_right j); [apply (f_equal (cut "]")) in E2|apply (f_equal (cut ")")) in E2]; rewrite !cut_app in E2 by apply NC; now injection E2. }
  apply INJ in R. destruct i as [l r c], j as [l' r' c']. cbn in *. subst. f_equal. destruct c, c'; easy.
Qed.
(** repr: evaluating it gives the interval back, if the texts of its ends can be evaluated; otherwise
    - for infinite ends - it raises. *)
Theorem interval_repr_evaluates : forall num read i, number_texts num -> proper i ->
  (forall q, read (num (Fin q)) = Some (Fin q)) -> read (num PInf) = None -> read (num NInf) = None ->
  forall j, eval_interval read (iv_repr num i) = Ok j <->
    j = i /\ exists a b, iv_left i = Fin a /\ iv_right i = Fin b.
Proof.
  intros num read i [_ NC] P RF RP RN j. unfold eval_interval, iv_repr. rewrite strip_app. cbn [or_error bind].
  change (", " ++ ?x)%string with (String "," (" " ++ x)). rewrite cut_app by apply NC. cbn [or_error bind fst snd].
  assert (RD : forall x, x <> NaN -> (exists q, x = Fin q /\ read (num x) = Some x) \/ (read (num x) = None /\ forall q, x <> Fin q)).
  { intros [| |q|] N; try easy; auto; try (right; split; [assumption|discriminate]). left. eauto. }
  destruct P as (Nl & Nr & P). destruct (RD _ Nl) as [(a & Ea & ->)|[-> Xa]]; cbn [or_error bind].
  2:{ split; [discriminate|]. intros (_ & a & b & A & _). now apply Xa in A. }
  change (strip " " (" " ++ ?x)%string) with (Some x). cbn [or_error bind].
  change (", closed='" ++ ?x)%string with (String "," (" closed='" ++ x)). rewrite cut_app by apply NC. cbn [or_error bind fst snd].
  destruct (RD _ Nr) as [(b & Eb & ->)|[-> Xb]]; cbn [or_error bind].
  2:{ split; [discriminate|]. intros (_ & a' & b & _ & B). now apply Xb in B. }
  rewrite strip_app. cbn [or_error bind]. change ("')")%string with (String "'" ")"). rewrite cut_app by (destruct (iv_closed i); cbn; intuition discriminate).
  cbn [or_error bind fst snd]. rewrite closed_of_name. change (String.eqb ")" ")") with true. cbn [interval_call].
  rewrite interval_init_spec. split.
  - intros (E1 & E2 & E3 & _). split; [|eauto]. destruct i, j. cbn in *. congruence.
  - intros (-> & _). repeat split; auto.
Qed.
(** hash: equal ends and sides give equal hashes ... *)
Theorem interval_hash_spec : forall tuple_hash i j, iv_left i = iv_left j -> iv_right i = iv_right j -> iv_closed i = iv_closed j ->
  iv_hash tuple_hash i = iv_hash tuple_hash j.
Proof. intros t i j A B C. unfold iv_hash. now rewrite A, B, C. Qed.
(** ... but equal intervals are not one element of a set: a second object with the same ends and sides
    is added beside the first. *)
Theorem interval_set_refuted : forall tuple_hash h a b, a <> b -> h a = h b ->
  zlen (add_to_set tuple_hash h (add_to_set tuple_hash h [] a) b) = 2.
Proof.
  intros t h a b N E. unfold add_to_set at 2. cbn [in_set existsb]. unfold add_to_set, in_set. cbn [existsb fst snd].
  rewrite E, Z.eqb_refl. destruct (Z.eqb_spec a b); [easy|]. reflexivity.
Qed.
(** Intervals are not immutable: an attribute can be assigned; then left <= right may fail, no point
    lies in the interval, and a set that holds the object no longer finds it. *)
Theorem interval_immutable_refuted : forall tuple_hash h a v,
  tuple_hash v (iv_right (h a)) (closed_name (iv_closed (h a))) <> iv_hash tuple_hash (h a) ->
  let s := add_to_set tuple_hash h [] a in
  in_set tuple_hash h s a = true /\ in_set tuple_hash (assign_left h a v) s a = false /\
  (ltx (iv_right (h a)) v -> ~ proper (assign_left h a v a) /\ forall x, ~ lies x (assign_left h a v a)).
Proof.
  intros t h a v N s. subst s. unfold add_to_set. cbn [in_set existsb]. unfold in_set. cbn [existsb fst snd]. rewrite !Z.eqb_refl.
  assert (A : assign_left h a v a = MkInterval v (iv_right (h a)) (iv_closed (h a))) by (unfold assign_left; now rewrite Z.eqb_refl).
  split; [reflexivity|]. rewrite A. split.
  - unfold iv_hash at 2. cbn [iv_left iv_right iv_closed]. destruct (Z.eqb_spec (iv_hash t (h a)) (t v (iv_right (h a)) (closed_name (iv_closed (h a))))) as [E|_]; [congruence|reflexivity].
  - intro L. split.
    + intros (_ & _ & [C|C]); cbn in C; [apply (ltx_irrefl v); eapply ltx_trans; eassumption|]. rewrite <- C in L. now apply ltx_irrefl in L.
    + intros x (_ & U & W). cbn in U, W.
      assert (ltx (iv_right (h a)) x) by (destruct U as [U|[-> _]]; [eapply ltx_trans; eassumption|assumption]).
      destruct W as [W|[W _]]; [apply (ltx_irrefl x); eapply ltx_trans; eassumption|]. rewrite <- W in *. now apply (ltx_irrefl x).
Qed.

(** Examples, with a text for the few numbers in them. *)
Definition ex_num (x : fl) : string := match x with PInf => "inf" | NInf => "-inf" | NaN => "nan" | Fin q => if Qceqb q 0 then "0" else "1.5" end.
Example interval_str_ex : iv_str ex_num (MkInterval (fz 0) PInf CLeft) = "[0, inf)" /\
  iv_repr ex_num (MkInterval (fz 0) PInf CLeft) = "Interval(0, inf, closed='left')" /\
  proper (MkInterval (fz 0) PInf CLeft) /\ ltx (fz 0) PInf.
Proof. split; [reflexivity|]. split; [reflexivity|]. split; [|exact I]. repeat split; try discriminate. now left. Qed.
(** A text with the required properties: numerator and denominator in unary. *)
Fixpoint ex_unary (c : ascii) (n : nat) : string := match n with O => "" | S n => String c (ex_unary c n) end.
Definition ex_text (x : fl) : string :=
  match x with
  | PInf => "inf" | NInf => "-inf" | NaN => "nan"
  | Fin q => String (if Qcltb q 0 then "m" else "p")%char (ex_unary "1" (Z.abs_nat (Qnum (this q))) ++ String "/" (ex_unary "1" (Pos.to_nat (Qden (this q)))))%string
  end.
Lemma unary_chars c a n : has_char a (ex_unary c n) -> a = c.
Proof. induction n; cbn; intuition. Qed.
Lemma unary_len c n : String.length (ex_unary c n) = n.
Proof. induction n; cbn; congruence. Qed.
Lemma has_app a s t : has_char a (s ++ t)%string -> has_char a s \/ has_char a t.
Proof. induction s; cbn; intuition. Qed.
Example number_texts_ex : number_texts ex_text.
Proof.
  split.
  - intros x y E. destruct x as [| |p|], y as [| |q|]; try reflexivity; cbn [ex_text] in E; try discriminate; try (destruct (Qcltb _ _); discriminate).
    injection E as S E. apply (f_equal (cut "/")) in E. rewrite !cut_app in E by (intro H; apply unary_chars in H; discriminate). injection E as E1 E2.
    apply (f_equal String.length) in E1, E2. rewrite !unary_len in E1, E2. apply Pos2Nat.inj in E2. f_equal. apply Qc_is_canon. unfold Qeq. rewrite E2. f_equal.
    assert (SG : Qcltb p 0 = Qcltb q 0) by (destruct (Qcltb p 0), (Qcltb q 0); congruence).
    assert (N : forall r : Qc, Qcltb r 0 = true <-> Qnum (this r) < 0).
    { intro r. rewrite Qcltb_lt. unfold Qclt, Qlt. change (Qnum (this 0%Qc)) with 0. change (Qden (this 0%Qc)) with 1%positive. lia. }
    pose proof (N p) as Np. pose proof (N q) as Nq. rewrite SG in Np. destruct (Qcltb q 0).
    + assert (Qnum (this p) < 0) by now apply Np. assert (Qnum (this q) < 0) by now apply Nq. lia.
    + assert (~ Qnum (this p) < 0) by (intro K; apply Np in K; discriminate). assert (~ Qnum (this q) < 0) by (intro K; apply Nq in K; discriminate). lia.
  - assert (H : forall a x, has_char a (ex_text x) -> a <> ","%char /\ a <> "]"%char /\ a <> ")"%char).
    { intros a x. destruct x as [| |q|]; cbn; try (intuition (subst; discriminate)). intros [H|H]; [destruct (Qcltb q 0); subst; repeat split; discriminate|].
      apply has_app in H as [H|[H|H]]; [apply unary_chars in H|..|apply unary_chars in H]; subst; repeat split; discriminate. }
    intro x. repeat split; intro C; apply H in C; destruct C as (? & ? & ?); congruence.
Qed.
Print Assumptions interval_str_brackets.
Print Assumptions interval_str_injective.
Print Assumptions interval_repr_evaluates.
Print Assumptions interval_immutable_refuted.
