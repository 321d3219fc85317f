(** * Model of train_fn: src/ring/ml/train.py 100-243.

    The step function, the evaluation and the filter are parameters (see M_TrainStep); files are those of M_Callbacks, and the
    automatic folders "~/params" and "~/.ring_checkpoints" are the two folders of a [store]. *)
From Coq Require Import Reals String ZArith Bool Arith List.
From Verif Require Import Prelude M_Util M_Train M_Disk M_Callbacks.
Import ListNotations.
Local Open Scope string_scope.
Local Open Scope list_scope.
Local Open Scope nat_scope.

(** callback_save_params: False, True or a path *)
Inductive saving := SaveNo | SaveAuto | SavePath (path : string).

Section TrainFn.
Context {Par Opt Batch GS Key : Type}.
Variable has_nan : Par -> bool.
Variable elapsed : nat -> R.
Variable tags : nat -> option (list string).
Variable fmt : flt -> string.
(** ml_utils.unique_id(): one value per process (ring/__init__.py 154-158) *)
Variable uid : string.
Variable gen : GS -> Key -> GS * Batch.
Variable step_fn : Par -> Opt -> Batch -> Par * Opt * flt * list (list flt).
(** jax.random.PRNGKey and jax.random.split *)
Variable prng : nat -> Key.
Variable split : Key -> Key * Key.
(** filter.search_attr("params"), filter.init(X=X, seed=seed)[0], optimizer.init *)
Variable f_params : option Par.
Variable f_init : Batch -> nat -> Par.
Variable opt_init : Par -> Opt.

(** The arguments of train_fn that are not parameters above; [t_metrics] is the evaluation built from the metrics. *)
Record options := mkOptions {
  t_checkpoint : option string; t_seed_network : nat; t_seed_generator : nat;
  t_save : saving; t_track : option (list (list string));
  t_grads : option R; t_nan : bool; t_episode : option Z; t_seconds : option R; t_tag : option string; t_create : bool;
  t_metrics : option (Par -> Batch -> metrics); t_user : list (cb Par Opt Batch) }.

(** train.py 143-160: where training starts; the generator may be asked for one batch to shape the parameters. *)
Definition start_point (o : options) (fs : store Par Opt) (gs : GS) : result (GS * Par * Opt) :=
  do loaded <- match t_checkpoint o with
               | Some name =>
                   do s <- pickle_load (s_checkpoints fs) (with_suffix name ".pickle");
                   match s with SCheckpoint p q => Ok (Some (p, q)) | SParams _ => Err EKey end
               | None => Ok None
               end;
  match loaded with
  | Some (p, q) => Ok (gs, p, q)
  | None =>
      let (gs, p) := match f_params with
                     | Some p => (gs, p)
                     | None => let (gs, b) := gen gs (prng 1) in (gs, f_init b (t_seed_network o))
                     end in
      Ok (gs, p, opt_init p)
  end.

(** The path that callback_save_params stands for (train.py 184-190). *)
Definition save_path (o : options) : option string :=
  match t_save o with SaveNo => None | SaveAuto => Some (uid ++ ".pickle")%string | SavePath p => Some p end.
Definition opt_list {A B} (x : option A) (f : A -> B) : list B := match x with Some a => [f a] | None => [] end.
(** train.py 169-209 *)
Definition default_callbacks (o : options) : list (cb Par Opt Batch) :=
  [CEpisode (t_episode o)] ++
  opt_list (t_metrics o) CEval ++
  opt_list (t_tag o) CTag ++
  opt_list (save_path o) (fun p => CSave (Some p) 1 None 5%Z 0%R []) ++
  opt_list (t_grads o) (fun l => CLogGrads (Some l) 18 []) ++
  (if t_nan o then [CNan] else []) ++
  opt_list (t_seconds o) CTiming ++
  (if t_create o then [CCheckpoint None] else []).
(** train.py 211-228; the assertion compares with None, which callback_save_params never is. *)
Definition all_callbacks (o : options) : list (cb Par Opt Batch) :=
  default_callbacks o ++ t_user o ++ opt_list (t_track o) (fun z => CSave (save_path o) 3 (Some z) 5%Z 0%R []).

(** training_loop.py 71-81 without cycle_seed *)
Definition next_key (k : Key) (_ : nat) : Key * Key := split k.

(** train.py 141-243.  The result is as in M_Callbacks.train. *)
Definition train_fn (nl : nat) (o : options) (n : nat) (gs : GS) (fs : store Par Opt) :=
  match start_point o fs gs with
  | Err x => (fs, false, Err x)
  | Ok (gs, p, q) =>
      train has_nan elapsed tags fmt uid gen step_fn next_key nl n
        (loop_init gen gs (prng 0) (prng (t_seed_generator o)) p q (all_callbacks o) false) fs
  end.
End TrainFn.
Arguments options : clear implicits.

(** ** Loggers: train.py 106 and 230-237.  The default value of [loggers] is one list object that lives as long as the
    process; a given list is the caller's object.  [active] says whether wandb.run exists. *)
Inductive logger := Wandb | Other (i : nat).
Definition is_wandb (l : logger) : bool := match l with Wandb => true | Other _ => false end.
(** The loggers of the run, and the default list afterwards. *)
Definition use_loggers (default : list logger) (given : option (list logger)) (active : bool) : list logger * list logger :=
  let loggers := match given with Some l => l | None => default end in
  let loggers := if active && negb (existsb is_wandb loggers) then loggers ++ [Wandb] else loggers in
  (loggers, match given with Some _ => default | None => loggers end).
(** A sequence of calls in one process: the loggers of every call. *)
Fixpoint logger_calls (default : list logger) (calls : list (option (list logger) * bool)) : list (list logger) :=
  match calls with
  | [] => []
  | (given, active) :: r => let (used, default) := use_loggers default given active in used :: logger_calls default r
  end.
