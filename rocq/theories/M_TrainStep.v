(** * Model of one training step and of the evaluation after it: src/ring/ml/train.py 37-97 and 246-300.

    A batch is the list of its sequences; a sequence is the list of its time steps, each with input and target.  The filter treats the
    sequences of a batch one by one (true of RING, see M_Ring), so it is given for one sequence.  Parameters, gradients and losses are
    real vectors and numbers.  jax.grad is an oracle that takes a function. *)
From Coq Require Import Reals String ZArith Bool Arith List.
From Verif Require Import Prelude M_Util M_Rcmg.
Import ListNotations.
Local Open Scope nat_scope.

(** jnp.mean of a flat array *)
Definition rmean (l : list R) : R := (fold_right Rplus 0 l / INR (length l))%R.
(** The mean of vectors with [dim] components: jax.lax.pmean *)
Definition vmean (dim : nat) (gs : list (list R)) : list R := map (fun i => rmean (map (fun g => nth i g 0%R) gs)) (seq 0 dim).
(** jnp.split into [n] sections along the time axis *)
Definition split_time {A} (n : nat) (x : list A) : list (list A) :=
  map (fun i => firstn (length x / n) (skipn (i * (length x / n)) x)) (seq 0 n).

Section Step.
Context {St D Out Opt : Type}.
Variable m : machine.
(** filter.apply for one sequence: the predictions and the next state *)
Variable apply1 : list R -> St -> list D -> list Out * St.
Variable target : D -> Out.
(** metric_fn: (T, N, F), (T, N, F) -> scalar *)
Variable metric_fn : list Out -> list Out -> R.
(** jax.grad *)
Variable grad : (list R -> R) -> list R -> list R.
(** train.py 66-70: optimizer.update and optax.apply_updates *)
Variable apply_grads : list R -> list R -> Opt -> list R * Opt.
(** filter.init(B, X)[1] *)
Variable init_state : list (list D) -> list St.
Variable tbp : nat.

(** train.py 47-53, for one sequence *)
Definition seq_loss (p : list R) (sw : St * list D) : R := metric_fn (map target (snd sw)) (fst (apply1 p (fst sw) (snd sw))).
Definition seq_state (p : list R) (sw : St * list D) : St := snd (apply1 p (fst sw) (snd sw)).
(** train.py 47-53, for the sequences of one device *)
Definition loss_fn (ss : list St) (xs : list (list D)) (p : list R) : R := rmean (map (seq_loss p) (combine ss xs)).
(** pmap and vmap raise if the sizes of the leading axes differ *)
Definition same_shape (sss : list (list St)) (xss : list (list (list D))) : bool :=
  (length sss =? length xss) && forallb (fun sx => length (fst sx) =? length (snd sx)) (combine sss xss).
(** train.py 55-64 *)
Definition pmapped_loss_fn (p : list R) (sss : list (list St)) (xss : list (list (list D))) : result (R * list (list St) * list R) :=
  if same_shape sss xss then
    Ok (rmean (map (fun sx => loss_fn (fst sx) (snd sx) p) (combine sss xss)),
        map (fun sx => map (seq_state p) (combine (fst sx) (snd sx))) (combine sss xss),
        vmean (length p) (map (fun sx => grad (loss_fn (fst sx) (snd sx)) p) (combine sss xss)))
  else Err EValue.
(** train.py 87-93: [loss] is the value of the variable, unbound before the first window *)
Fixpoint windows (p : list R) (o : Opt) (sss : list (list St)) (loss : option R) (grads : list (list R)) (ws : list (list (list (list D))))
  : result (list R * Opt * option R * list (list R)) :=
  match ws with
  | [] => Ok (p, o, loss, grads)
  | w :: r =>
      do lsg <- pmapped_loss_fn p sss w;
      let '(l, sss', g) := lsg in
      let (p', o') := apply_grads g p o in
      windows p' o' sss' (Some l) (grads ++ [g]) r
  end.
(** train.py 74-95.  The first argument is initial_state, None before the first call; the new value is returned first.  int(T / tbp) is
    floor division; splitting into no section or sections of different lengths raises. *)
Definition step_fn (initial_state : option (list (list St))) (p : list R) (o : Opt) (X : list (list D))
  : result (list (list St) * (list R * Opt * R * list (list R))) :=
  do pv <- distribute_batchsize m (length X);
  do init <- match initial_state with Some s => Ok s | None => expand_batchsize (init_state X) (fst pv) (snd pv) end;
  do X' <- expand_batchsize X (fst pv) (snd pv);
  let T := match X with [] => 0 | x :: _ => length x end in
  do n <- (if tbp =? 0 then Err EZeroDiv else Ok (T / tbp));
  do _ <- (if (n =? 0) || negb (T mod n =? 0) then Err EValue else Ok tt);
  let ws := map (fun i => map (map (fun x => nth i (split_time n x) [])) X') (seq 0 n) in
  do r <- windows p o init None [] ws;
  let '(p', o', l, gs) := r in
  match l with
  | None => Err EOther
  | Some l => Ok (init, (p', o', l, gs))
  end.
(** The step function keeps initial_state between calls: one call after the other, each with its own batch. *)
Fixpoint step_calls (initial_state : option (list (list St))) (p : list R) (o : Opt) (Xs : list (list (list D))) : result (list R * Opt) :=
  match Xs with
  | [] => Ok (p, o)
  | X :: r => do s <- step_fn initial_state p o X; let '(init, (p', o', _, _)) := s in step_calls (Some init) p' o' r
  end.

(** ** Evaluation *)
Context {F : Type}.
(** The value of link [i] in an output *)
Variable link : Out -> nat -> F.
Variable n_links : nat.
(** train.py 246-253 with ml_utils.py 343-344; jnp replaces an index that is too large by the last one *)
Definition link_index (link_names : option (list string)) : list (string * nat) :=
  let names := match link_names with Some l => l | None => map (fun i => ("link" ++ str_nat i)%string) (seq 0 n_links) end in
  combine names (map (fun i => Nat.min i (n_links - 1)) (seq 0 (length names))).
(** train.py 275: the matrix over sequences and times of one link *)
Definition metric_matrix (metric : F -> F -> R) (p : list R) (i : nat) (ss : list St) (xs : list (list D)) : list (list R) :=
  map (fun sx => map (fun yy => metric (link (fst yy) i) (link (snd yy) i)) (combine (map target (snd sx)) (fst (apply1 p (fst sx) (snd sx)))))
    (combine ss xs).
(** train.py 263-298: for every metric and every link name the mean over devices of the reduced values *)
Definition eval_fn (metrices : list (string * ((F -> F -> R) * (list (list R) -> R)))) (link_names : option (list string))
    (initial_state : option (list (list St))) (p : list R) (X : list (list D)) : result (list (list St) * list (string * list (string * R))) :=
  do pv <- distribute_batchsize m (length X);
  do init <- match initial_state with Some s => Ok s | None => expand_batchsize (init_state X) (fst pv) (snd pv) end;
  do X' <- expand_batchsize X (fst pv) (snd pv);
  if same_shape init X' then
    Ok (init, map (fun nm => (fst nm, fold_left (fun d ni => dset String.eqb d (fst ni)
            (rmean (map (fun sx => snd (snd nm) (metric_matrix (fst (snd nm)) p (snd ni) (fst sx) (snd sx))) (combine init X')))) (link_index link_names) []))
         metrices)
  else Err EValue.
End Step.
