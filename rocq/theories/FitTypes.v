(* The language in which the attribute life cycle of the estimators is written
   down (FitModel.v): which attributes a method reads, which ones it writes, in
   which order, and where it can raise.  What the numerical expressions compute
   is left open: an interpretation ([world]) gives a meaning to their names, and
   the theorems hold for every interpretation.

   The semantics is the part of Python's that matters here:
   - [self.a = e] evaluates [e] first and binds the attribute only if [e] does
     not raise;
   - reading an attribute that was never bound raises AttributeError;
   - an exception leaves the attributes bound so far as they are;
   - [check_is_fitted(self)] of scikit-learn (sklearn/utils/validation.py, the
     releases 0.23 to 1.x required by /repo/requirements.txt) passes when
     [vars(self)] has a name that ends with "_" and does not start with "__";
     [check_is_fitted(self, a)] passes when [a] is bound. *)
From Coq Require Import List String Ascii Bool.
From Verif Require Import Np.
Import ListNotations.
Open Scope string_scope.
Open Scope list_scope.

(* What an expression reads: a hyperparameter [self.p], an attribute set by
   [fit], or a local variable (the argument is the local "X"). *)
Inductive src := Par (p : string) | Att (a : string) | Loc (x : string).

(* [May n rs]: the expression called [n], which may raise; [Tot n rs]: one that
   cannot raise once what it reads is there. *)
Inductive exp := May (n : string) (rs : list src) | Tot (n : string) (rs : list src).

Inductive stmt :=
| Skip
| Seq (s t : stmt)
| Let (x : string) (e : exp)              (* x = e, or the call e for its checks *)
| SetA (a : string) (e : exp)             (* self.a = e *)
| If (e : exp) (s t : stmt)
| For (x : string) (e : exp) (b : stmt)   (* for x in e: b *)
| Raise (x : exn)
| Fitted (l : option (list string))       (* check_is_fitted(self[, l]) *)
| Return (e : exp).

Declare Scope py_scope.
Notation "s ;; t" := (Seq s t) (at level 65, right associativity) : py_scope.

Record world (V : Type) := {
  may : string -> list V -> res V;
  tot : string -> list V -> V;
  truth : V -> bool;
  items : V -> list V
}.
Arguments may {V}. Arguments tot {V}. Arguments truth {V}. Arguments items {V}.

Definition store (V : Type) := list (string * V).

Fixpoint get {V} (s : store V) (x : string) : option V :=
  match s with
  | [] => None
  | (y, v) :: t => if String.eqb x y then Some v else get t x
  end.

Definition set {V} (s : store V) (x : string) (v : V) : store V := (x, v) :: s.

(* the names counted by check_is_fitted(self) *)
Fixpoint last_is_underscore (s : string) : bool :=
  match s with
  | EmptyString => false
  | String c EmptyString => Ascii.eqb c "_"
  | String _ t => last_is_underscore t
  end.

Definition fitted_name (s : string) : bool :=
  last_is_underscore s && negb (String.prefix "__" s).

Inductive outcome (V : Type) := Next | Done (v : V) | Fail (x : exn).
Arguments Next {V}. Arguments Done {V}. Arguments Fail {V}.

Section Sem.
  Context {V : Type} (w : world V) (par : string -> V).

  Definition read (a l : store V) (r : src) : res V :=
    match r with
    | Par p => Ok (par p)
    | Att x => match get a x with Some v => Ok v | None => Err AttributeError end
    | Loc x => match get l x with Some v => Ok v | None => Err UnboundLocalError end
    end.

  Fixpoint reads (a l : store V) (rs : list src) : res (list V) :=
    match rs with
    | [] => Ok []
    | r :: t =>
        match read a l r with
        | Err x => Err x
        | Ok v => match reads a l t with Err x => Err x | Ok vs => Ok (v :: vs) end
        end
    end.

  Definition eval (a l : store V) (e : exp) : res V :=
    match e with
    | May n rs => match reads a l rs with Err x => Err x | Ok vs => may w n vs end
    | Tot n rs => match reads a l rs with Err x => Err x | Ok vs => Ok (tot w n vs) end
    end.

  Definition check_fitted (a : store V) (l : option (list string)) : bool :=
    match l with
    | None => existsb (fun p => fitted_name (fst p)) a
    | Some ns => forallb (fun n => match get a n with Some _ => true | None => false end) ns
    end.

  (* (attributes, locals) before -> (attributes, locals) after, and how it ends *)
  Fixpoint exec (s : stmt) (a l : store V) : store V * store V * outcome V :=
    match s with
    | Skip => (a, l, Next)
    | Seq s t =>
        match exec s a l with
        | (a', l', Next) => exec t a' l'
        | r => r
        end
    | Let x e =>
        match eval a l e with
        | Ok v => (a, set l x v, Next)
        | Err x => (a, l, Fail x)
        end
    | SetA x e =>
        match eval a l e with
        | Ok v => (set a x v, l, Next)
        | Err x => (a, l, Fail x)
        end
    | If e s t =>
        match eval a l e with
        | Ok v => if truth w v then exec s a l else exec t a l
        | Err x => (a, l, Fail x)
        end
    | For x e b =>
        match eval a l e with
        | Ok v =>
            (fix loop (vs : list V) (a l : store V) :=
               match vs with
               | [] => (a, l, Next)
               | v :: vs =>
                   match exec b a (set l x v) with
                   | (a', l', Next) => loop vs a' l'
                   | r => r
                   end
               end) (items w v) a l
        | Err x => (a, l, Fail x)
        end
    | Raise x => (a, l, Fail x)
    | Fitted ns => if check_fitted a ns then (a, l, Next) else (a, l, Fail NotFittedError)
    | Return e =>
        match eval a l e with
        | Ok v => (a, l, Done v)
        | Err x => (a, l, Fail x)
        end
    end.
End Sem.

(* A class: its [fit], its other methods, and its documented attributes. *)
Record cls := {
  c_name : string;
  c_fit : stmt;
  c_meths : list (string * stmt);
  c_public : list string
}.

(* An object: its hyperparameters and the attributes bound so far. *)
Record obj (V : Type) := { o_par : string -> V; o_att : store V }.
Arguments o_par {V}. Arguments o_att {V}. Arguments Build_obj {V}.

Definition new_obj {V} (p : string -> V) : obj V := Build_obj p [].

(* What a user can do with an object.  [fit_transform(X)] is [fit(X)] followed,
   if it did not raise, by [transform(X)] (/repo/gtda/base.py 34-39 and
   sklearn's TransformerMixin), so histories of these four cover it. *)
Inductive op (V : Type) :=
| SetParams (p : string -> V)
| Fit (X : V)
| Call (m : string) (X : V)
| Get (a : string).
Arguments SetParams {V}. Arguments Fit {V}. Arguments Call {V}. Arguments Get {V}.

(* What comes back: a value, an exception, or nothing of interest ([self]). *)
Inductive obs (V : Type) := Self | Val (v : V) | Exc (x : exn).
Arguments Self {V}. Arguments Val {V}. Arguments Exc {V}.

Fixpoint lookup_meth (l : list (string * stmt)) (m : string) : option stmt :=
  match l with
  | [] => None
  | (n, s) :: t => if String.eqb m n then Some s else lookup_meth t m
  end.

Section Run.
  Context {V : Type} (w : world V) (c : cls).

  Definition run_fit (o : obj V) (X : V) : obj V * obs V :=
    let '(a', _, r) := exec w (o_par o) (c_fit c) (o_att o) (set [] "X" X) in
    (Build_obj (o_par o) a', match r with Fail x => Exc x | _ => Self end).

  Definition run_call (o : obj V) (m : string) (X : V) : obj V * obs V :=
    match lookup_meth (c_meths c) m with
    | None => (o, Exc AttributeError)
    | Some s =>
        let '(a', _, r) := exec w (o_par o) s (o_att o) (set [] "X" X) in
        (Build_obj (o_par o) a',
         match r with Fail x => Exc x | Done v => Val v | Next => Self end)
    end.

  Definition run_op (o : obj V) (q : op V) : obj V * obs V :=
    match q with
    | SetParams p => (Build_obj p (o_att o), Self)
    | Fit X => run_fit o X
    | Call m X => run_call o m X
    | Get a => (o, match get (o_att o) a with Some v => Val v | None => Exc AttributeError end)
    end.

  (* The object after a history, and what the user saw at each step. *)
  Fixpoint run (o : obj V) (h : list (op V)) : obj V * list (obs V) :=
    match h with
    | [] => (o, [])
    | q :: t =>
        let '(o', r) := run_op o q in
        let '(o'', rs) := run o' t in
        (o'', r :: rs)
    end.
End Run.
