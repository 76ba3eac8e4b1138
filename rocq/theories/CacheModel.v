(** Model of gtda/pipeline.py (Pipeline) on a heap of estimator objects, with the cache of
    [memory] and with what is left behind when a call raises.  Refines PipeModel.v, whose steps
    hold the states of the estimators themselves. *)
From Coq Require Import String.
From Verif Require Import Np MParModel PipeModel.
Open Scope Z_scope.
Open Scope string_scope.

(** The state in which an estimator (external) is left by fit, fit_transform,
    fit_transform_resample and fit_predict when they raise. *)
Record leftovers (O X Y V : Type) := Leftovers {
  l_fit : O -> X -> option Y -> list (string * V) -> O;
  l_fit_transform : O -> X -> option Y -> list (string * V) -> O;
  l_fit_transform_resample : O -> X -> option Y -> list (string * V) -> O;
  l_fit_predict : O -> X -> option Y -> list (string * V) -> O }.
Arguments l_fit {_ _ _ _}. Arguments l_fit_transform {_ _ _ _}.
Arguments l_fit_transform_resample {_ _ _ _}. Arguments l_fit_predict {_ _ _ _}.

Section Heap.
Context {O X Y V R : Type}.
Variable M : methods O X Y V R.
Variable L : leftovers O X Y V.
Notation params := (list (string * V)).
(** The arguments of a cached call: the estimator (in its state), data, target and keyword
    arguments; the weight is always None. *)
Notation arguments := (O * X * option Y * params)%type.
(** joblib (external): the hashes of two lists of arguments agree *)
Variable same : arguments -> arguments -> bool.

(** Estimators are referred to by their addresses; those not below [next] do not exist yet.  The
    caches of _fit_transform_one and _fit_transform_resample_one, by location: a result holds a copy
    of the fitted estimator. *)
Record world := World {
  obj : nat -> O;
  next : nat;
  st_ft : list (Z * arguments * (X * O));
  st_ftr : list (Z * arguments * (X * option Y * O)) }.
Notation steps_list := (list (string * step nat)).

Definition write (a : nat) (o : O) (w : world) : world :=
  World (fun b => if Nat.eqb b a then o else obj w b) (next w) (st_ft w) (st_ftr w).
Definition alloc (o : O) (w : world) : world * nat :=
  (World (fun b => if Nat.eqb b (next w) then o else obj w b) (S (next w)) (st_ft w) (st_ftr w), next w).
(** The steps with the states of their estimators. *)
Definition view_step (w : world) (s : step nat) : step O :=
  match s with SNone => SNone | SPass => SPass | SObj a => SObj (obj w a) end.
Definition view (w : world) (steps : steps_list) : list (string * step O) :=
  map (fun p => (fst p, view_step w (snd p))) steps.
(** joblib (external): the result stored for these arguments *)
Fixpoint recall {A} (st : list (Z * arguments * A)) (l : Z) (k : arguments) : option A :=
  match st with
  | [] => None
  | (l', k', r) :: t => if (l =? l')%Z && same k k' then Some r else recall t l k
  end.

(** Calling methods of the estimator at an address *)
Definition call_fit (a : nat) (x : X) (y : option Y) (p : params) (w : world) : world * res unit :=
  let o := obj w a in
  if has M o Fit then
    match fit M o x y p with
    | Ok o' => (write a o' w, Ok tt)
    | Err e => (write a (l_fit L o x y p) w, Err e)
    end
  else (w, Err AttributeError).
Definition call_fit_transform (a : nat) (x : X) (y : option Y) (p : params) (w : world) : world * res X :=
  let o := obj w a in
  match fit_transform M o x y p with
  | Ok (o', x') => (write a o' w, Ok x')
  | Err e => (write a (l_fit_transform L o x y p) w, Err e)
  end.
Definition call_fit_transform_resample (a : nat) (x : X) (y : option Y) (p : params) (w : world)
  : world * res (X * option Y) :=
  let o := obj w a in
  match fit_transform_resample M o x y p with
  | Ok (o', r) => (write a o' w, Ok r)
  | Err e => (write a (l_fit_transform_resample L o x y p) w, Err e)
  end.
Definition call_fit_predict (a : nat) (x : X) (y : option Y) (p : params) (w : world) : world * res R :=
  let o := obj w a in
  match fit_predict M o x y p with
  | Ok (o', r) => (write a o' w, Ok r)
  | Err e => (write a (l_fit_predict L o x y p) w, Err e)
  end.

(** pipeline.py lines 445-453, with weight None; the estimator returned is the one passed *)
Definition h_fit_transform_one (a : nat) (x : X) (y : option Y) (p : params) (w : world) : world * res X :=
  if has M (obj w a) FitTransform then call_fit_transform a x y p w
  else match call_fit a x y p w with
       | (w, Err e) => (w, Err e)
       | (w, Ok _) => (w, get M (obj w a) Transform (transform M (obj w a) x))
       end.
(** pipeline.py lines 456-467, with weight None *)
Definition h_fit_transform_resample_one (a : nat) (x : X) (y : option Y) (p : params) (w : world)
  : world * res (X * option Y) :=
  if has M (obj w a) FitTransformResample then call_fit_transform_resample a x y p w
  else match call_fit a x y p w with
       | (w, Err e) => (w, Err e)
       | (w, Ok _) => (w, get M (obj w a) TransformResample (transform_resample M (obj w a) x y))
       end.

(** pipeline.py lines 104-106: the two functions through memory.cache (joblib, external).  Without a
    location they are called.  Otherwise a stored result is loaded, with a new copy of the fitted
    estimator; as nothing else refers to the clone passed, the copy is put in its place.  Results
    are stored when the call returns. *)
Definition fit_transform_one_cached (memory : option Z) (a : nat) (x : X) (y : option Y) (p : params)
  (w : world) : world * res X :=
  match memory with
  | None => h_fit_transform_one a x y p w
  | Some l =>
      let k := (obj w a, x, y, p) in
      match recall (st_ft w) l k with
      | Some (x', o') => (write a o' w, Ok x')
      | None =>
          match h_fit_transform_one a x y p w with
          | (w, Err e) => (w, Err e)
          | (w, Ok x') => (World (obj w) (next w) ((l, k, (x', obj w a)) :: st_ft w) (st_ftr w), Ok x')
          end
      end
  end.
Definition fit_transform_resample_one_cached (memory : option Z) (a : nat) (x : X) (y : option Y) (p : params)
  (w : world) : world * res (X * option Y) :=
  match memory with
  | None => h_fit_transform_resample_one a x y p w
  | Some l =>
      let k := (obj w a, x, y, p) in
      match recall (st_ftr w) l k with
      | Some (r, o') => (write a o' w, Ok r)
      | None =>
          match h_fit_transform_resample_one a x y p w with
          | (w, Err e) => (w, Err e)
          | (w, Ok r) => (World (obj w) (next w) (st_ft w) ((l, k, (r, obj w a)) :: st_ftr w), Ok r)
          end
      end
  end.

(** pipeline.py lines 123-134, for the estimator at [a] (cloned or not) *)
Definition h_fit_one (memory : option Z) (d : list (string * params)) (name : string) (a : nat)
  (x : X) (y : option Y) (w : world) : world * res (X * option Y) :=
  match params_of name d with
  | Err e => (w, Err e)
  | Ok p =>
      if has M (obj w a) Resample || has M (obj w a) FitTransformResample then
        match y with
        | None => match fit_transform_one_cached memory a x y p w with
                  | (w, Err e) => (w, Err e)
                  | (w, Ok x') => (w, Ok (x', y))
                  end
        | Some _ => fit_transform_resample_one_cached memory a x y p w
        end
      else match fit_transform_one_cached memory a x y p w with
           | (w, Err e) => (w, Err e)
           | (w, Ok x') => (w, Ok (x', y))
           end
  end.
(** pipeline.py lines 113-140: the steps (of self.steps) after the loop, also when it is left by an
    exception *)
Fixpoint h_fit_loop (memory : option Z) (d : list (string * params)) (steps : steps_list) (x : X) (y : option Y)
  (w : world) : world * steps_list * res (X * option Y) :=
  match steps with
  | [] => (w, [], Ok (x, y))
  | (name, SObj a) :: t =>
      let '(w, c) := match memory with
                     | None => (w, a)
                     | Some _ => alloc (clone M (obj w a)) w
                     end in
      match h_fit_one memory d name c x y w with
      | (w, Err e) => (w, steps, Err e)
      | (w, Ok (x', y')) =>
          let '(w, t', r) := h_fit_loop memory d t x' y' w in
          (w, (name, SObj c) :: t', r)
      end
  | s :: t => let '(w, t', r) := h_fit_loop memory d t x y w in (w, s :: t', r)
  end.
(** pipeline.py lines 98-143 _fit; the list of steps is copied first (line 99), so that a list held
    by the caller does not change *)
Definition h_fit_steps (memory : option Z) (steps : steps_list) (x : X) (y : option Y) (fit_params : params)
  (w : world) : world * steps_list * res (X * option Y * params) :=
  match (do _ <- validate_steps M (view w steps); split_params fit_params (empty_params (view w steps))) with
  | Err e => (w, steps, Err e)
  | Ok d =>
      let '(w, before, r) := h_fit_loop memory d (removelast steps) x y w in
      match rev steps with
      | [] => (w, before, Err IndexError)
      | (name, s) :: _ =>
          (w, (before ++ [(name, s)])%list,
           do xy <- r;
           match s with
           | SObj _ => do p <- params_of name d; Ok (xy, p)
           | _ => Ok (xy, [])
           end)
      end
  end.
(** self._final_estimator as an address *)
Definition final_address (steps : steps_list) : res (option nat) :=
  match rev steps with
  | [] => Err IndexError
  | (_, SObj a) :: _ => Ok (Some a)
  | (_, _) :: _ => Ok None
  end.

(** What the methods return *)
Inductive answer := Self | Data (x : X) | Both (r : option (X * option Y)) | Value (v : R).

(** pipeline.py lines 145-176 *)
Definition h_fit (memory : option Z) (steps : steps_list) (x : X) (y : option Y) (fit_params : params) (w : world)
  : world * steps_list * res answer :=
  let '(w, steps, r) := h_fit_steps memory steps x y fit_params w in
  match r with
  | Err e => (w, steps, Err e)
  | Ok ((xt, yr), p) =>
      match final_address steps with
      | Err e => (w, steps, Err e)
      | Ok None => (w, steps, Ok Self)
      | Ok (Some a) => let '(w, r) := call_fit a xt yr p w in (w, steps, do _ <- r; Ok Self)
      end
  end.
(** pipeline.py lines 178-213 *)
Definition h_fit_transform (memory : option Z) (steps : steps_list) (x : X) (y : option Y) (fit_params : params) (w : world)
  : world * steps_list * res answer :=
  match final_address steps with
  | Err e => (w, steps, Err e)
  | Ok last =>
      let '(w, steps, r) := h_fit_steps memory steps x y fit_params w in
      match r with
      | Err e => (w, steps, Err e)
      | Ok ((xt, yr), p) =>
          match last with
          | None => (w, steps, Ok (Data xt))
          | Some a => let '(w, r) := h_fit_transform_one a xt yr p w in (w, steps, do x' <- r; Ok (Data x'))
          end
      end
  end.
(** pipeline.py lines 215-252 *)
Definition h_fit_transform_resample (memory : option Z) (steps : steps_list) (x : X) (y : option Y) (fit_params : params)
  (w : world) : world * steps_list * res answer :=
  match final_address steps with
  | Err e => (w, steps, Err e)
  | Ok last =>
      let '(w, steps, r) := h_fit_steps memory steps x y fit_params w in
      match r with
      | Err e => (w, steps, Err e)
      | Ok ((xt, yr), p) =>
          match last with
          | None => (w, steps, Ok (Both (Some (xt, yr))))
          | Some a =>
              if has M (obj w a) FitTransformResample then
                let '(w, r) := call_fit_transform_resample a xt yr p w in (w, steps, do r <- r; Ok (Both (Some r)))
              else if has M (obj w a) FitTransform then
                let '(w, r) := call_fit_transform a xt yr p w in (w, steps, do x' <- r; Ok (Both (Some (x', yr))))
              else (w, steps, Ok (Both None))
          end
      end
  end.
(** pipeline.py lines 254-282 *)
Definition h_fit_predict (memory : option Z) (steps : steps_list) (x : X) (y : option Y) (fit_params : params) (w : world)
  : world * steps_list * res answer :=
  match final_address steps with
  | Err e => (w, steps, Err e)
  | Ok None => (w, steps, Err AttributeError)
  | Ok (Some a) =>
      if has M (obj w a) FitPredict then
        let '(w, steps, r) := h_fit_steps memory steps x y fit_params w in
        match r with
        | Err e => (w, steps, Err e)
        | Ok ((xt, yr), p) => let '(w, r) := call_fit_predict a xt yr p w in (w, steps, do v <- r; Ok (Value v))
        end
      else (w, steps, Err AttributeError)
  end.

(** ** Programs using pipelines and estimators *)
Inductive fitting := FFit | FFitTransform | FFitTransformResample | FFitPredict.
Definition h_fitting (f : fitting) :=
  match f with
  | FFit => h_fit | FFitTransform => h_fit_transform | FFitTransformResample => h_fit_transform_resample
  | FFitPredict => h_fit_predict
  end.
Inductive question :=
| QTransform (x : X) | QTransformResample (x : X) (y : option Y) | QPredict (x : X)
| QScore (x : X) (y : option Y) (sample_weight : option V) | QInverse (x : X) (y : option Y).
(** the methods which do not fit, of a pipeline whose estimators are in these states *)
Definition ask (steps : list (string * step O)) (q : question) : res answer :=
  match q with
  | QTransform x => do x' <- pipe_transform M steps x; Ok (Data x')
  | QTransformResample x y => do r <- pipe_transform_resample M steps x y; Ok (Both (Some r))
  | QPredict x => do v <- pipe_predict M steps x; Ok (Value v)
  | QScore x y sw => do v <- pipe_score M steps x y sw; Ok (Value v)
  | QInverse x y => do x' <- pipe_inverse_transform M steps x y; Ok (Data x')
  end.

Record pipeline := Pipe { p_steps : steps_list; p_memory : option Z }.
(** Create an estimator; change the state of one directly (fit it, set a parameter ...); create a
    pipeline; replace the steps of a pipeline; call a fitting method; call another method; and (not
    by the program) lose results stored in caches. *)
Inductive op :=
| ONew (o : O)
| OSet (a : nat) (o : O)
| OPipe (p : pipeline)
| OSteps (i : nat) (steps : steps_list)
| OFit (i : nat) (f : fitting) (x : X) (y : option Y) (fit_params : params)
| OAsk (i : nat) (q : question)
| OForget (keep : Z -> arguments -> bool).
Record state := State { heap : world; pipes : list pipeline }.

Fixpoint set_nth {A} (l : list A) (i : nat) (v : A) : list A :=
  match l, i with
  | [], _ => []
  | _ :: t, 0%nat => v :: t
  | x :: t, S i => x :: set_nth t i v
  end.
Definition exists_step (w : world) (p : string * step nat) : bool :=
  match snd p with SObj a => Nat.ltb a (next w) | _ => true end.
(** One operation and its answer, if it has one.  Programs only refer to estimators and pipelines
    that exist; otherwise nothing happens here. *)
Definition perform (s : state) (c : op) : state * option (res answer) :=
  let w := heap s in
  match c with
  | ONew o => (State (fst (alloc o w)) (pipes s), None)
  | OSet a o => (if Nat.ltb a (next w) then State (write a o w) (pipes s) else s, None)
  | OPipe p => (if forallb (exists_step w) (p_steps p) then State w (pipes s ++ [p])%list else s, None)
  | OSteps i st =>
      (match nth_error (pipes s) i with
       | Some p => if forallb (exists_step w) st then State w (set_nth (pipes s) i (Pipe st (p_memory p))) else s
       | None => s
       end, None)
  | OFit i f x y ps =>
      match nth_error (pipes s) i with
      | Some p => let '(w, st, r) := h_fitting f (p_memory p) (p_steps p) x y ps w in
                  (State w (set_nth (pipes s) i (Pipe st (p_memory p))), Some r)
      | None => (s, None)
      end
  | OAsk i q =>
      (s, match nth_error (pipes s) i with Some p => Some (ask (view w (p_steps p)) q) | None => None end)
  | OForget keep =>
      (State (World (obj w) (next w) (filter (fun e => keep (fst (fst e)) (snd (fst e))) (st_ft w))
                (filter (fun e => keep (fst (fst e)) (snd (fst e))) (st_ftr w))) (pipes s), None)
  end.
Fixpoint run (s : state) (h : list op) : state * list (res answer) :=
  match h with
  | [] => (s, [])
  | c :: t => let '(s, a) := perform s c in
              let '(s, l) := run s t in
              (s, match a with Some r => r :: l | None => l end)
  end.
(** Nothing exists; what the addresses hold does not matter. *)
Definition start (junk : nat -> O) : state := State (World junk 0 [] []) [].
End Heap.
Arguments Self {_ _ _}. Arguments Data {_ _ _}. Arguments Both {_ _ _}. Arguments Value {_ _ _}.
