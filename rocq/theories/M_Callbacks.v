(** * Model of the callbacks of a training run: src/ring/ml/callbacks.py and _DefaultEvalFnCallback (ml/train.py 320-335), and of
    how a run ends (ml/training_loop.py 83-98 and 133-137).

    Floating point numbers are real numbers, NaN or infinities; rounding is not modelled.  Gradients are given flat, one list per
    window.  Uploads to a logger, warnings and prints are not modelled. *)
From Coq Require Import Reals String ZArith Bool Arith List.
From Verif Require Import Prelude M_Util M_Rcmg M_Train M_Disk.
Import ListNotations.
Local Open Scope string_scope.
Local Open Scope list_scope.
Local Open Scope nat_scope.

(** ** Floating point numbers *)
Inductive flt := Fin (r : R) | NaN | PInf | NInf.
Definition is_nan (x : flt) : bool := match x with NaN => true | _ => false end.
Definition is_inf (x : flt) : bool := match x with PInf | NInf => true | _ => false end.
Definition finite (x : flt) : bool := match x with Fin _ => true | _ => false end.
(** x < y *)
Definition flt_lt (x y : flt) : bool :=
  match x, y with
  | NaN, _ | _, NaN => false
  | Fin a, Fin b => if Rlt_dec a b then true else false
  | NInf, NInf => false
  | NInf, _ => true
  | _, PInf => match x with PInf => false | _ => true end
  | _, _ => false
  end.
Definition flt_add (x y : flt) : flt :=
  match x, y with
  | Fin a, Fin b => Fin (a + b)%R
  | NaN, _ | _, NaN => NaN
  | PInf, NInf | NInf, PInf => NaN
  | PInf, _ | _, PInf => PInf
  | NInf, _ | _, NInf => NInf
  end.
(** x / n for a positive integer; Python raises for zero. *)
Definition flt_div (x : flt) (n : nat) : result flt :=
  match n with
  | 0 => Err EZeroDiv
  | _ => Ok (match x with Fin a => Fin (a / INR n)%R | _ => x end)
  end.
(** jnp.linalg.norm *)
Definition f_norm (l : list flt) : flt :=
  if existsb is_nan l then NaN
  else if existsb is_inf l then PInf
  else Fin (sqrt (fold_right (fun x s => match x with Fin a => (a * a + s)%R | _ => s end) 0%R l)).
(** jnp.max(jnp.abs(...)) of a nonempty array *)
Definition f_max_abs (l : list flt) : flt :=
  if existsb is_nan l then NaN
  else if existsb is_inf l then PInf
  else Fin (fold_right (fun x s => match x with Fin a => Rmax (Rabs a) s | _ => s end) 0%R l).

(** ** Metrics: nested dictionaries *)
Inductive met := MNum (x : flt) | MDict (d : list (string * met)).
Definition metrics := list (string * met).
(** d.update(u) *)
Definition update (d u : metrics) : metrics := fold_left (fun d kv => dset String.eqb d (fst kv) (snd kv)) u d.
(** callbacks.py 183-187 *)
Fixpoint zoom_from (m : met) (path : list string) : result flt :=
  match path with
  | [] => match m with MNum x => Ok x | MDict _ => Err EType end
  | k :: r =>
      match m with
      | MDict d => do m' <- dgetE String.eqb d k; zoom_from m' r
      | MNum _ => Err EType
      end
  end.
Definition zoom_into_metrices (m : metrics) (path : list string) : result flt := zoom_from (MDict m) path.

(** deque(maxlen=k).append(v) *)
Definition push {A} (k : nat) (dq : list A) (v : A) : list A := skipn (length (dq ++ [v]) - k) (dq ++ [v]).

Section Cb.
Context {Par Opt Batch : Type}.
(** jnp.any(jnp.isnan(batch_concat(params))) *)
Variable has_nan : Par -> bool.
(** Seconds since the start of the program, and the tags of the wandb run (if there is one), when episode e is checked. *)
Variable elapsed : nat -> R.
Variable tags : nat -> option (list string).

(** The path of CSave is None if something else than a path was given (train_fn can hand over False); only closing notices. *)
Inductive cb :=
| CEval (f : Par -> Batch -> metrics)
| CEvalXy (f : Par -> metrics) (every : Z) (id : string) (last : option metrics)
| CAverage (zooms : list (list string)) (name : string)
| CSave (path : option string) (maxlen : nat) (track : option (list (list string))) (every : Z) (value : R) (queue : list (flt * (Par * nat)))
| CLogGrads (limit : option R) (k : nat) (dq : list bool)
| CNan
| CEpisode (limit : option Z)
| CTiming (limit : R)
| CCheckpoint (saved : option (Par * Opt))
| CTag (tag : string).

(** callbacks.py 133-147 *)
Fixpoint average (m : metrics) (zooms : list (list string)) (value : flt) (n : nat) : result (flt * nat) :=
  match zooms with
  | [] => Ok (value, n)
  | z :: r =>
      do v <- zoom_into_metrices m z;
      if is_nan v || is_inf v then average m r value n else average m r (flt_add value v) (n + 1)
  end.
(** callbacks.py 224-228 *)
Fixpoint tracked (m : metrics) (zooms : list (list string)) (value : flt) : result flt :=
  match zooms with
  | [] => Ok value
  | z :: r => do v <- zoom_into_metrices m z; tracked m r (flt_add value v)
  end.
(** callbacks.py 301-314: one window after the other *)
Fixpoint log_grads (limit : option R) (k : nat) (dq : list bool) (kill : bool) (i : nat) (gs : list (list flt)) (log : metrics) : list bool * bool * metrics :=
  match gs with
  | [] => (dq, kill, log)
  | g :: r =>
      let dq' := match limit with Some l => push k dq (flt_lt (Fin l) (f_norm g)) | None => dq end in
      let kill' := match limit with Some _ => kill || forallb (fun b => b) dq' | None => kill end in
      let log := dset String.eqb log (("grads_tbp_" ++ str_nat i ++ "_max")%string) (MNum (f_max_abs g)) in
      let log := dset String.eqb log (("grads_tbp_" ++ str_nat i ++ "_l2norm")%string) (MNum (f_norm g)) in
      log_grads limit k dq' kill' (i + 1) r log
  end.
Definition signal (b : bool) : option bool := if b then Some true else None.
(** i % every == 0; the divisor zero raises. *)
Definition divides (every : Z) (e : nat) : result bool :=
  if (every =? 0)%Z then Err EZeroDiv else Ok (Z.of_nat e mod every =? 0)%Z.

(** after_training_step of each callback. *)
Definition cb_step (c : cb) (e : nat) (m : metrics) (p : Par) (g : list (list flt)) (b : Batch) (o : Opt) : result (cb * metrics * option bool) :=
  match c with
  | CEval f => Ok (c, update m (f p b), None)                                  (* train.py 324-335 *)
  | CEvalXy f every id last =>                                                 (* callbacks.py 95-115 *)
      if (every =? -1)%Z then Ok (c, m, None)
      else
        do now <- divides every e;
        let last := if now then Some [(id, MDict (f p))] else last in
        do _ <- assert_ (negb (dmem String.eqb m id));
        match last with
        | None => Err EOther
        | Some l => Ok (CEvalXy f every id last, update m l, None)
        end
  | CAverage zooms name =>                                                     (* callbacks.py 123-150 *)
      do vn <- average m zooms (Fin 0%R) 0;
      if 0 <? snd vn then do v <- flt_div (fst vn) (snd vn); Ok (c, update m [(name, MNum v)], None)
      else Ok (c, m, None)
  | CSave path maxlen track every value q =>                                   (* callbacks.py 209-238 *)
      do vv <- match track with
               | None => Ok (Fin (value - 1)%R, (value - 1)%R)
               | Some zooms =>
                   do now <- divides every e;
                   if now then do v <- tracked m zooms (Fin 0%R); do v <- flt_div v (length zooms); Ok (v, value)
                   else Ok (Fin (10 ^ 16)%R, value)
               end;
      do q <- q_insert flt_lt maxlen q (fst vv, (p, e));
      Ok (CSave path maxlen track every (snd vv) q, m, None)
  | CLogGrads limit k dq =>                                                    (* callbacks.py 291-316 *)
      let '(dq, kill, log) := log_grads limit k dq false 0 g [] in
      Ok (CLogGrads limit k dq, update m log, signal kill)
  | CNan => Ok (c, m, signal (has_nan p))                                      (* callbacks.py 326-345 *)
  | CEpisode limit =>                                                          (* callbacks.py 352-366 *)
      Ok (c, update m [("i_episode", MNum (Fin (INR e)))], signal (match limit with Some k => (k <=? Z.of_nat e)%Z | None => false end))
  | CTiming limit => Ok (c, m, signal (if Rlt_dec limit (elapsed e) then true else false))      (* callbacks.py 373-387 *)
  | CCheckpoint _ => Ok (CCheckpoint (Some (p, o)), m, None)                   (* callbacks.py 391-402 *)
  | CTag tag =>                                                                (* callbacks.py 422-439 *)
      Ok (c, m, signal (match tags e with Some l => existsb (String.eqb tag) l | None => false end))
  end.

(** The callbacks as one object of the training loop. *)
Fixpoint put {A} (l : list A) (j : nat) (x : A) : list A :=
  match l, j with [], _ => [] | _ :: r, 0 => x :: r | y :: r, S k => y :: put r k x end.
Definition callbacks (j : nat) (cs : list cb) (e : nat) (m : metrics) (p : Par) (g : list (list flt)) (b : Batch) (o : Opt)
  : result (list cb * metrics * option bool) :=
  match nth_error cs j with
  | None => Err EIndex
  | Some c => do r <- cb_step c e m p g b o; Ok (put cs j (fst (fst r)), snd (fst r), snd r)
  end.

(** ** Closing *)
Inductive saved := SParams (p : Par) | SCheckpoint (p : Par) (o : Opt).
(** The folder of the parameters and the folder of the checkpoints. *)
Record store := mkStore { s_params : disk saved; s_checkpoints : disk saved }.
(** "{:.2f}".format(value).replace(".", ",") *)
Variable fmt : flt -> string.
(** ml_utils.unique_id() *)
Variable uid : string.

(** callbacks.py 243-251: the file of a queue element *)
Definition save_name (path : string) (n : nat) (ele : flt * (Par * nat)) : string :=
  if n =? 1 then with_suffix path ".pickle"
  else with_suffix (stem path ++ "_episode=" ++ str_nat (snd (snd ele)) ++ "_value=" ++ fmt (fst ele))%string ".pickle".
Fixpoint save_queue (path : string) (n : nat) (q : list (flt * (Par * nat))) (d : disk saved) : disk saved * result unit :=
  match q with
  | [] => (d, Ok tt)
  | ele :: r =>
      match pickle_save d (SParams (fst (snd ele))) (save_name path n ele) false with
      | Err x => (d, Err x)
      | Ok os => save_queue path n r (apply_ops d os)
      end
  end.
(** callbacks.py 240-268 (without upload and cleanup) and 404-415; the others do nothing.  [kill] is the kill flag. *)
Definition cb_close (kill : bool) (c : cb) (st : store) : store * result unit :=
  match c with
  | CSave None _ _ _ _ q => (st, match q with [] => Ok tt | _ => Err EType end)
  | CSave (Some path) _ _ _ _ q => let (d, r) := save_queue path (length q) q (s_params st) in (mkStore d (s_checkpoints st), r)
  | CCheckpoint sv =>
      if kill then
        match sv with
        | None => (st, Err EOther)
        | Some (p, o) =>
            match pickle_save (s_checkpoints st) (SCheckpoint p o) (with_suffix uid ".pickle") true with
            | Err x => (st, Err x)
            | Ok os => (mkStore (s_params st) (apply_ops (s_checkpoints st) os), Ok tt)
            end
        end
      else (st, Ok tt)
  | _ => (st, Ok tt)
  end.
(** training_loop.py 133-135: an exception leaves the rest open.  The number of closed callbacks is returned. *)
Fixpoint close_all (kill : bool) (cs : list cb) (st : store) : store * nat * result unit :=
  match cs with
  | [] => (st, 0, Ok tt)
  | c :: r =>
      match cb_close kill c st with
      | (st, Err x) => (st, 0, Err x)
      | (st, Ok _) => let '(st, n, res) := close_all kill r st in (st, S n, res)
      end
  end.

(** ** A whole run: training_loop.py 83-98 with close_afterwards *)
Context {GS Key KS : Type}.
Variable gen : GS -> Key -> GS * Batch.
Variable step_fn : Par -> Opt -> Batch -> Par * Opt * flt * list (list flt).
Variable next_key : KS -> nat -> KS * Key.
Variable n_loggers : nat.
Definition loss_metrics (l : flt) : metrics := [("loss", MNum l)].
Notation tloop := (@loop GS Batch Par Opt (list cb) KS).
(** The folders afterwards, whether the loggers have been closed, and the final state with the flag that is returned. *)
Definition train (n : nat) (st : tloop) (fs : store) : store * bool * result (tloop * bool) :=
  match snd (loop_run gen step_fn loss_metrics callbacks (length (l_cs st)) n_loggers next_key n false st) with
  | Err x => (fs, false, Err x)
  | Ok (st', flag) =>
      match close_all flag (l_cs st') fs with
      | (fs', _, Err x) => (fs', false, Err x)
      | (fs', _, Ok _) => (fs', true, Ok (st', flag))
      end
  end.
End Cb.
Arguments cb : clear implicits.
Arguments saved : clear implicits.
Arguments store : clear implicits.
