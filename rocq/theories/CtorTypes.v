(* Values, constructors and the parameter protocol of scikit-learn, for the
   estimators of giotto-tda.

   Simplifications:
   - values are the literals used as defaults, and [VOther n] for any other object;
     a tuple of numbers is a list of rationals, so (1, 2) and (1.0, 2.0) are the
     same tuple; float literals are the decimal numbers written in the source;
   - an object is its attribute dictionary, in the order of insertion;
   - get_params / set_params / clone are those of sklearn.base.BaseEstimator for
     parameters which are not estimators themselves and for names without the
     separator "__"; the deep copy made by clone is equal to the original. *)
From Coq Require Import List String ZArith QArith Bool.
From Verif Require Import Np.
Import ListNotations.
Open Scope string_scope.
Open Scope list_scope.

Inductive val :=
| VNone | VBool (b : bool) | VInt (n : Z) | VFloat (q : Q) | VInf
| VStr (s : string) | VTuple (l : list Q) | VDict | VFun (name : string) | VOther (n : nat).

Definition val_eq_dec (a b : val) : {a = b} + {a <> b}.
Proof.
  assert (D : forall x y : Q, {x = y} + {x <> y}) by (repeat decide equality).
  decide equality; try apply string_dec; try apply Bool.bool_dec; try apply Z.eq_dec;
    try apply Nat.eq_dec; try apply list_eq_dec; apply D.
Defined.

Definition dict := list (string * val).

(** d.get(k) *)
Fixpoint lookup (k : string) (d : dict) : option val :=
  match d with
  | [] => None
  | (k', v) :: d' => if k =? k' then Some v else lookup k d'
  end.

(** d[k] = v *)
Fixpoint put (k : string) (v : val) (d : dict) : dict :=
  match d with
  | [] => [(k, v)]
  | (k', v') :: d' => if k =? k' then (k', v) :: d' else (k', v') :: put k v d'
  end.

(** an argument of the function, or an attribute of self *)
Inductive expr := Arg (x : string) | Self (a : string).

(** a constructor whose body only has assignments *)
Record init0 := {
  i_params : list (string * option val);
  i_body : list (string * expr) }.

Inductive stmt :=
| Assign (a : string) (e : expr)                          (* self.a = e *)
| SuperInit (b : init0) (args : list (string * expr)).    (* super().__init__(x=e, ...) *)

Record ctor := {
  c_name : string;
  c_params : list (string * option val);
  c_body : list stmt }.

Definition mem (k : string) (l : list string) : bool := existsb (String.eqb k) l.

Fixpoint nodup (l : list string) : bool :=
  match l with [] => true | k :: l' => negb (mem k l') && nodup l' end.

(** Python's binding of arguments for a signature without *args, **kwargs and
    keyword-only parameters: every parameter takes its positional argument, else
    its keyword argument, else its default. *)
Fixpoint bind_rest (ps : list (string * option val)) (kw : dict) : res dict :=
  match ps with
  | [] => Ok []
  | (p, d) :: ps' =>
      match lookup p kw, d with
      | Some v, _ | None, Some v => do r <- bind_rest ps' kw; Ok ((p, v) :: r)
      | None, None => Err TypeError
      end
  end.

Fixpoint bind_args (ps : list (string * option val)) (pos : list val) (kw : dict) {struct pos} : res dict :=
  match pos, ps with
  | [], _ =>
      if forallb (fun k => mem k (map fst ps)) (map fst kw) && nodup (map fst kw)
      then bind_rest ps kw else Err TypeError
  | _ :: _, [] => Err TypeError
  | v :: pos', (p, _) :: ps' => do r <- bind_args ps' pos' kw; Ok ((p, v) :: r)
  end.

Definition eval (args self : dict) (e : expr) : res val :=
  match e with
  | Arg x => match lookup x args with Some v => Ok v | None => Err UnboundLocalError end
  | Self a => match lookup a self with Some v => Ok v | None => Err AttributeError end
  end.

Fixpoint run0 (body : list (string * expr)) (args self : dict) : res dict :=
  match body with
  | [] => Ok self
  | (a, e) :: body' => do v <- eval args self e; run0 body' args (put a v self)
  end.

Fixpoint run (body : list stmt) (args self : dict) : res dict :=
  match body with
  | [] => Ok self
  | Assign a e :: body' => do v <- eval args self e; run body' args (put a v self)
  | SuperInit b es :: body' =>
      do vs <- mapM (fun xe => do v <- eval args self (snd xe); Ok (fst xe, v)) es;
      do args' <- bind_args (i_params b) [] vs;
      do self' <- run0 (i_body b) args' self;
      run body' args self'
  end.

(** k( *pos, **kw) *)
Definition construct (k : ctor) (pos : list val) (kw : dict) : res dict :=
  do args <- bind_args (c_params k) pos kw; run (c_body k) args [].

(** sorted(names) *)
Fixpoint insert (s : string) (l : list string) : list string :=
  match l with
  | [] => [s]
  | t :: l' => if String.leb s t then s :: l else t :: insert s l'
  end.
Fixpoint sort (l : list string) : list string :=
  match l with [] => [] | s :: l' => insert s (sort l') end.

(** sklearn.base.BaseEstimator.get_params *)
Definition get_params (k : ctor) (o : dict) : res dict :=
  mapM (fun p => match lookup p o with Some v => Ok (p, v) | None => Err AttributeError end)
    (sort (map fst (c_params k))).

(** sklearn.base.BaseEstimator.set_params: the object afterwards, and the outcome *)
Fixpoint set_all (valid : list string) (o kw : dict) : dict * res unit :=
  match kw with
  | [] => (o, Ok tt)
  | (p, v) :: kw' =>
      if mem p valid then set_all valid (put p v o) kw' else (o, Err ValueError)
  end.
Definition set_params (k : ctor) (o kw : dict) : dict * res unit :=
  match kw with
  | [] => (o, Ok tt)
  | _ => match get_params k o with
         | Err e => (o, Err e)
         | Ok ps => set_all (map fst ps) o kw
         end
  end.

(** sklearn.base.clone: the parameters of the new object must be the very values
    handed to its constructor *)
Definition clone (k : ctor) (o : dict) : res dict :=
  do ps <- get_params k o;
  do o' <- construct k [] ps;
  do ps' <- get_params k o';
  if forallb (fun pv => match lookup (fst pv) ps' with
                        | Some v => if val_eq_dec v (snd pv) then true else false
                        | None => false
                        end) ps
  then Ok o' else Err RuntimeError.
