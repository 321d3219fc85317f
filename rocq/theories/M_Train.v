(** * ring/ml/training_loop.py, ring/ml/callbacks.py (Queue, SaveParams), ring/ml/optimizer.py *)
From Coq Require Import ZArith Bool List.
From Verif Require Import Prelude.
Import ListNotations.

(** ** Queue, callbacks.py 159-187.  [ltb] is [<] on the values. *)
Section Queue.
Context {V D : Type}.
Variable ltb : V -> V -> bool.

(** Python's list.sort(key=value) is stable and only uses [<]: modelled by stable insertion. *)
Fixpoint insert_sorted (x : V * D) (l : list (V * D)) : list (V * D) :=
  match l with
  | [] => [x]
  | y :: r => if ltb (fst x) (fst y) then x :: y :: r else y :: insert_sorted x r
  end.
Definition py_sort (l : list (V * D)) : list (V * D) := fold_left (fun acc x => insert_sorted x acc) l [].

(** callbacks.py 167-177: insert.  [storage[-1]] of an empty list is an IndexError. *)
Definition q_insert (maxlen : nat) (storage : list (V * D)) (ele : V * D) : result (list (V * D)) :=
  if (length storage <? maxlen)%nat then Ok (py_sort (storage ++ [ele]))
  else match rev storage with
       | [] => Err EIndex
       | w :: r => if ltb (fst ele) (fst w) then Ok (py_sort (rev r ++ [ele])) else Ok storage
       end.
Definition q_run (maxlen : nat) (history : list (V * D)) : result (list (V * D)) :=
  foldM (q_insert maxlen) [] history.
End Queue.

(** ** SaveParamsTrainingLoopCallback, callbacks.py 190-237: the value under which the parameters of an
    episode are stored.  [metric] gives the mean of the tracked metrics of an episode. *)
Section Save.
Variable huge : Z.    (* 1e16 *)
Definition save_value (track : option (nat -> Z)) (every : nat) (i_episode : nat) : Z :=
  match track with
  | None => - Z.of_nat (S i_episode)
  | Some metric => if (i_episode mod every =? 0)%nat then metric i_episode else huge
  end.
End Save.

(** ** skip_large_update, optimizer.py 74-153 *)

(** optimizer.py 74-79: the squared norm over all leaves is below the limit.  [None] stands for NaN and
    the infinities: they make the sum non-finite and the comparison false. *)
Section Norm.
Context {F : Type}.
Variables (zero : F) (add mul : F -> F -> F) (ltb : F -> F -> bool).
Fixpoint norm_sq (l : list (option F)) : option F :=
  match l with
  | [] => Some zero
  | x :: r => match x, norm_sq r with Some a, Some b => Some (add (mul a a) b) | _, _ => None end
  end.
Definition condition_not_toolarge (max_norm_sq : F) (leaves : list (list (option F))) : bool :=
  match norm_sq (concat leaves) with Some n => ltb n max_norm_sq | None => false end.
End Norm.

Section Skip.
Context {U I N P : Type}.
Variable not_toolarge : U -> bool.                 (* _condition_not_toolarge *)
Variable zeros : U -> U.                           (* tree_map(zeros_like) *)
Variable inner : U -> I -> P -> U * I.             (* inner.update *)
Variable noise : option (U -> N -> U * N).         (* add_noise, when disturb_if_skip *)
Variable max_int : nat.                            (* 2^31 - 1 *)

Record skip_state := mkSkip { toolarge_count : nat; count : nat; inner_state : I; noise_state : N }.

(** numerics.safe_int32_increment *)
Definition safe_incr (n : nat) : nat := if (n <? max_int)%nat then S n else max_int.

(** optimizer.py 110-151 *)
Definition skip_update (max_consecutive warmup : nat) (u : U) (st : skip_state) (p : P) : U * skip_state :=
  let ok := not_toolarge u in
  let tl := if ok then 0%nat else safe_incr (toolarge_count st) in
  let r :=
    if ok || (max_consecutive <? tl)%nat || (count st <? warmup)%nat
    then let (u', i') := inner u (inner_state st) p in (u', i', noise_state st)
    else match noise with
         | Some f => let (u', n') := f u (noise_state st) in (u', inner_state st, n')
         | None => (zeros u, inner_state st, noise_state st)
         end in
  (fst (fst r), mkSkip tl (safe_incr (count st)) (snd (fst r)) (snd r)).

(** A training run: the optimiser state and parameters after each update.  [apply] is optax.apply_updates. *)
Variable apply : P -> U -> P.
Fixpoint skip_run (max_consecutive warmup : nat) (us : list U) (st : skip_state) (p : P) : list (U * skip_state * P) :=
  match us with
  | [] => []
  | u :: r => let (u', st') := skip_update max_consecutive warmup u st p in
              let p' := apply p u' in (u', st', p') :: skip_run max_consecutive warmup r st' p'
  end.
End Skip.
Arguments mkSkip {I N}.

(** ** TrainingLoop, training_loop.py 40-131.  Everything observable is an event; an exception ends the
    run, keeping the events so far. *)
Section Loop.
Context {GS Key Batch Par Opt Loss Grad Met CS : Type}.

Inductive event :=
| ETrain (episode : nat) (batch : Batch)
| ECallback (j episode : nat) (p : Par) (eval : Batch)
| ELog (k episode : nat)
| ECloseCallback (j : nat)
| ECloseLogger (k : nat).

Variable gen : GS -> Key -> GS * Batch.
Variable step_fn : Par -> Opt -> Batch -> Par * Opt * Loss * Grad.
Variable metrics_of : Loss -> Met.
(** A callback may change the metrics, its own state, send a kill (or un-kill) signal, or raise. *)
Variable callback : nat -> CS -> nat -> Met -> Par -> Grad -> Batch -> Opt -> result (CS * Met * option bool).
Variable n_callbacks n_loggers : nat.
(** [key] property 71-81: the next key and key-generator state for an episode. *)
Context {KS : Type}.
Variable next_key : KS -> nat -> KS * Key.

Record loop := mkLoop { i_episode : Z; l_gs : GS; l_ks : KS; l_params : Par; l_opt : Opt;
                        l_eval : Batch; l_cs : CS; l_kill : bool }.

(** Calls the callbacks [j], [j+1], ... in order. *)
Fixpoint call_callbacks (js : list nat) (e : nat) (cs : CS) (m : Met) (p : Par) (g : Grad) (b : Batch) (o : Opt) (kill : bool)
  : list event * result (CS * Met * bool) :=
  match js with
  | [] => ([], Ok (cs, m, kill))
  | j :: r =>
      match callback j cs e m p g b o with
      | Err x => ([ECallback j e p b], Err x)
      | Ok (cs', m', k) =>
          let (ev, res) := call_callbacks r e cs' m' p g b o (match k with Some v => v | None => kill end) in
          (ECallback j e p b :: ev, res)
      end
  end.

(** training_loop.py 100-131: step *)
Definition loop_step (st : loop) : list event * result loop :=
  let e := Z.to_nat (i_episode st + 1) in
  let train := l_eval st in
  let (ks, key) := next_key (l_ks st) e in
  let (gs, eval) := gen (l_gs st) key in
  match step_fn (l_params st) (l_opt st) train with
  | (p, o, loss, g) =>
      let (ev, res) := call_callbacks (seq 0 n_callbacks) e (l_cs st) (metrics_of loss) p g eval o (l_kill st) in
      match res with
      | Err x => (ETrain e train :: ev, Err x)
      | Ok (cs, _, kill) =>
          (ETrain e train :: ev ++ map (fun k => ELog k e) (seq 0 n_loggers),
           Ok (mkLoop (i_episode st + 1) gs ks p o eval cs kill))
      end
  end.

(** training_loop.py 133-137 *)
Definition close_events : list event :=
  map ECloseCallback (seq 0 n_callbacks) ++ map ECloseLogger (seq 0 n_loggers).

Fixpoint run_steps (n : nat) (st : loop) : list event * result loop :=
  match n with
  | 0%nat => ([], Ok st)
  | S k => let (ev, res) := loop_step st in
           match res with
           | Err x => (ev, Err x)
           | Ok st' => if l_kill st' then (ev, Ok st')
                       else let (ev', res') := run_steps k st' in (ev ++ ev', res')
           end
  end.

(** training_loop.py 83-98: run *)
Definition loop_run (n : nat) (close_afterwards : bool) (st : loop) : list event * result (loop * bool) :=
  let st0 := mkLoop (i_episode st) (l_gs st) (l_ks st) (l_params st) (l_opt st) (l_eval st) (l_cs st) false in
  let (ev, res) := run_steps n st0 in
  match res with
  | Err x => (ev, Err x)
  | Ok st' => (ev ++ (if close_afterwards then close_events else []), Ok (st', l_kill st'))
  end.

(** training_loop.py 42-69: construction draws the first batch with PRNGKey(0). *)
Definition loop_init (gs : GS) (key0 : Key) (ks : KS) (p : Par) (o : Opt) (cs : CS) (kill : bool) : loop :=
  let (gs', b) := gen gs key0 in mkLoop (-1) gs' ks p o b cs kill.
End Loop.

(** training_loop.py 71-78: keys from a cycle of seeds, reshuffled at the start of every cycle.
    [shuffle] is random.shuffle with the state of the random module. *)
Definition seed_key {RS} (shuffle : RS -> list nat -> RS * list nat) (ks : RS * list nat) (episode : nat)
  : (RS * list nat) * option nat :=
  let (rs, seeds) := ks in
  let idx := (episode mod length seeds)%nat in
  let (rs', seeds') := if (idx =? 0)%nat then shuffle rs seeds else (rs, seeds) in
  ((rs', seeds'), nth_error seeds' idx).
