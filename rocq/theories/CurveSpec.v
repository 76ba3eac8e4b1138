(** Specifications for the curves. *)
From Coq Require Import String.
From Verif Require Import Np Fl CurveModel.
Open Scope Z_scope.

(** Binomial coefficients. *)
Fixpoint binom (n k : nat) : Z :=
  match n, k with
  | _, O => 1
  | O, S _ => 0
  | S n, S k => binom n k + binom n (S k)
  end.
(** sum_{m = 0}^{k} (-1)^(k - m) C(k, m) x_{i + m} *)
Definition alternating_sum (k : nat) (x : list Qc) (i : Z) : Qc :=
  fold_right Qcplus 0%Qc
    (map (fun m => (Q2Qc (inject_Z ((-1) ^ Z.of_nat (k - m) * binom k m)) *
                    match Znth x (i + Z.of_nat m) with Some v => v | None => 0 end)%Qc) (seq 0 (S k))).

Section Spec.
Context {V : Type}.
Variable is_array : V -> bool.
Variable reduce : string -> list (string * V) -> list Qc -> res Qc.
(** The function and the keyword arguments meant for channel j; None: no feature. *)
Definition chosen (function : function_arg V) (function_params : params_arg V) (j : Z)
  : option (func V * list (string * V)) :=
  match function with
  | FOne f => Some (f, match function_params with PDict p => p | _ => [] end)
  | FMany l =>
      match Znth l j with
      | Some (Some f) => Some (f, match function_params with
                                  | PMany ps => match Znth ps j with Some (Some p) => p | _ => [] end
                                  | _ => [] end)
      | _ => None
      end
  end.
(** The values a function gives for a channel. *)
Definition gives (f : func V) (p : list (string * V)) (x : list Qc) (values : list Qc) : Prop :=
  match f with
  | Name s => if string_dec s "identity" then p = [] /\ values = x else exists a, reduce s p x = Ok a /\ values = [a]
  | Fun g => g p x = Ok (Vc values) \/ exists a, g p x = Ok (Sc a) /\ values = [a]
  end.
(** The block of a channel: nothing without a function. *)
Definition channel_block function function_params (j : Z) (x : list Qc) (values : list Qc) : Prop :=
  match chosen function function_params j with
  | None => values = []
  | Some (f, p) => gives f p x values
  end.
(** Keyword arguments allowed for the functions with a name. *)
Definition allowed (s : string) (p : list (string * V)) : Prop :=
  forall k v, In (k, v) p -> s = "average"%string /\ k = "weights"%string /\ is_array v = true.
(** The arguments fit accepts. *)
Definition acceptable (function : function_arg V) (function_params : params_arg V) (n_channels : Z) : Prop :=
  match function with
  | FOne (Name s) => In s available /\ match function_params with
                                        | PNone => True | PDict p => allowed s p | PMany _ => False end
  | FOne (Fun _) => match function_params with PMany _ => False | _ => True end
  | FMany l =>
      zlen l = n_channels /\ (forall s, In (Some (Name s)) l -> In s available) /\
      match function_params with
      | PNone => True
      | PDict _ => False
      | PMany ps => zlen ps = n_channels /\
                    forall j s, Znth l j = Some (Some (Name s)) -> exists p, Znth ps j = Some (Some p) /\ allowed s p
      end
  end.
End Spec.

(** Which exception fit raises. *)
Section Errors.
Context {V : Type}.
Variable is_array : V -> bool.
(** The first keyword argument that is not allowed: KeyError when the function has no such argument,
    TypeError when its value is not an array. *)
Definition bad_argument (s : string) (p : list (string * V)) (e : exn) : Prop :=
  exists before k v after, p = before ++ (k, v) :: after /\ allowed is_array s before /\
    ((~ (s = "average"%string /\ k = "weights"%string) /\ e = KeyError) \/
     (s = "average"%string /\ k = "weights"%string /\ is_array v = false /\ e = TypeError)).
(** The names occurring in the argument function. *)
Definition names (function : function_arg V) (s : string) : Prop :=
  match function with
  | FOne f => f = Name s
  | FMany l => In (Some (Name s)) l
  end.
(** A list with one dictionary or one function with a list. *)
Definition kinds_differ (function : function_arg V) (function_params : params_arg V) : Prop :=
  match function, function_params with
  | FMany _, PDict _ | FOne _, PMany _ => True
  | _, _ => False
  end.
Definition wrong_lengths (function : function_arg V) (function_params : params_arg V) (n : Z) : Prop :=
  match function with
  | FMany l => zlen l <> n \/ match function_params with PMany ps => zlen ps <> n | _ => False end
  | _ => False
  end.
(** The arguments given for a function with a name, in channel j: None in a list of arguments is
    not replaced by an empty dictionary. *)
Definition given (function : function_arg V) (function_params : params_arg V) (j : Z) (s : string)
  (p : option (list (string * V))) : Prop :=
  match function, function_params with
  | FOne f, PDict q => j = 0 /\ f = Name s /\ p = Some q
  | FMany l, PMany ps => Znth l j = Some (Some (Name s)) /\ Znth ps j = Some p
  | _, _ => False
  end.
(** The first channel of which the arguments are refused. *)
Definition bad_channel (function : function_arg V) (function_params : params_arg V) (e : exn) : Prop :=
  exists j s p, given function function_params j s p /\
    (forall j' s' p', j' < j -> given function function_params j' s' p' ->
       exists q, p' = Some q /\ allowed is_array s' q) /\
    match p with None => e = AttributeError | Some q => bad_argument s q e end.
End Errors.
