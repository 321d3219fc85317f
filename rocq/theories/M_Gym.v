(** * Model of src/ring/utils/register_gym_envs/saddle.py: the gymnasium environment "saddle" (class Env, lines 35-113).
    The recorded motion of an episode comes from the generator of lines 40-49, which is an argument here; the axis of size one
    that it puts in front of all arrays (line 66: [0]) is left out.  float32 rounding of the observations is not modelled, nor
    are the wrappers that gymnasium.make puts around an environment. *)
From Coq Require Import Reals String ZArith Bool List.
From Verif Require Import Prelude M_Math.
Import ListNotations.
Local Open Scope R_scope.

Section Env.
Context {Pose Rng : Type}.

(** What the generator returns: X, y and the poses xs. *)
Record draw := mkDraw { dr_X : list (string * list (string * list vec3)); dr_y : list (string * list quat); dr_xs : list Pose }.
Variable generator : Z -> draw.
(** gymnasium.utils.seeding: the random generator for a seed and one from the operating system's entropy; numpy's
    Generator.integers(1, int(1e18)). *)
Variables (rng_of_seed : Z -> Rng) (rng_entropy : Rng) (integers : Rng -> Z * Rng).

(** The attributes assigned by reset: _xs, _truth, _observations; _T is the length of _truth (line 67). *)
Record episode := mkEp { ep_xs : list Pose; ep_truth : list quat; ep_obs : list (list R) }.
(** [e_action]: None for Python's None; Some None for an array of NaN.  [e_ep]: None before the first reset. *)
Record env := mkEnv { e_rng : option Rng; e_action : option (option quat); e_ep : option episode; e_t : nat }.

(** saddle.py 35-57 *)
Definition env_init : env := mkEnv None None None 0.

Definition lookup {V} (d : list (string * V)) (k : string) : result V := match dget String.eqb d k with Some v => Ok v | None => Err EKey end.

(** Assignment to three columns of the observations, with numpy's broadcasting of a single row: saddle.py 69-72 *)
Definition put (c : nat) (row : list R) (v : vec3) : list R := firstn c row ++ [vx v; vy v; vz v] ++ skipn (c + 3) row.
Definition assign (obs : list (list R)) (c : nat) (vals : list vec3) : result (list (list R)) :=
  if Nat.eqb (length vals) (length obs) then Ok (map (fun p => put c (fst p) (snd p)) (combine obs vals))
  else match vals with [v] => Ok (map (fun row => put c row v) obs) | _ => Err EValue end.
Definition sensor (X : list (string * list (string * list vec3))) (link feature : string) : result (list vec3) :=
  do f <- lookup X link; lookup f feature.

(** saddle.py 77-81.  A jax array, as _truth is one, clamps the index; a numpy array, as _observations is one, raises. *)
Definition get_obs (e : episode) (t : nat) : result (list R) := match nth_error (ep_obs e) t with Some o => Ok o | None => Err EIndex end.
Definition jax_get (l : list quat) (i : nat) : result quat :=
  match nth_error l (Nat.min i (length l - 1)) with Some q => Ok q | None => Err EIndex end.
Definition get_info (e : episode) (t : nat) : result quat := jax_get (ep_truth e) t.

(** saddle.py 59-75.  The attributes left behind by a failing reset are not modelled. *)
Definition reset (e : env) (seed : option Z) : result (env * (list R * quat)) :=
  let rng := match seed with Some s => rng_of_seed s | None => match e_rng e with Some r => r | None => rng_entropy end end in
  let '(jax_seed, rng') := integers rng in
  let d := generator jax_seed in
  do truth <- lookup (dr_y d) "seg2";
  let T := length truth in
  let obs := repeat (repeat 0 12) T in
  do a1 <- sensor (dr_X d) "seg1" "acc"; do obs <- assign obs 0 a1;
  do g1 <- sensor (dr_X d) "seg1" "gyr"; do obs <- assign obs 3 g1;
  do a2 <- sensor (dr_X d) "seg2" "acc"; do obs <- assign obs 6 a2;
  do g2 <- sensor (dr_X d) "seg2" "gyr"; do obs <- assign obs 9 g2;
  let ep := mkEp (dr_xs d) truth obs in
  do o <- get_obs ep 0; do i <- get_info ep 0;
  Ok (mkEnv (Some rng') (e_action e) (Some ep) 0, (o, i)).

(** numpy.linalg.norm of an action, and saddle.py 87: dividing by zero gives NaN *)
Definition anorm (a : quat) : R := sqrt (qw a * qw a + qx a * qx a + qy a * qy a + qz a * qz a).
Definition ascale (c : R) (a : quat) : quat := Q4 (c * qw a) (c * qx a) (c * qy a) (c * qz a).
Definition normalized (a : quat) : option quat := if Req_EM_T (anorm a) 0 then None else Some (ascale (/ anorm a) a).
(** saddle.py 88 and 95-96; None is NaN *)
Definition reward_of (truth : quat) (a : option quat) : option R := option_map (fun qhat => - angle_error truth qhat) a.

Record output := mkOut { o_obs : list R; o_reward : option R; o_terminated : bool; o_truncated : bool; o_info : quat }.
(** saddle.py 83-93.  The counter and the action are assigned also when the step then fails. *)
Definition step (e : env) (action : quat) : env * result output :=
  match e_ep e with
  | None => (e, Err EOther) (* AttributeError *)
  | Some ep =>
      let t := S (e_t e) in
      let a := normalized action in
      let e' := mkEnv (e_rng e) (Some a) (Some ep) t in
      (e', do tr <- jax_get (ep_truth ep) (t - 1);
           let reward := reward_of tr a in
           let truncated := Z.leb (Z.of_nat (length (ep_truth ep)) - 1) (Z.of_nat t) in
           do o <- get_obs ep t; do i <- get_info ep t;
           Ok (mkOut o reward false truncated i))
  end.
Fixpoint steps (e : env) (actions : list quat) : env * list (result output) :=
  match actions with
  | [] => (e, [])
  | a :: r => let '(e1, o) := step e a in let '(e2, os) := steps e1 r in (e2, o :: os)
  end.

(** saddle.py 98-113: what System.render or render_prediction is called with.  jnp.take gives NaN beyond the end: None. *)
Inductive scene := SPlain (x : option Pose) | SPrediction (x : option Pose) (yhat : list (string * option quat)).
Definition render (e : env) : result scene :=
  match e_ep e with
  | None => Err EOther
  | Some ep =>
      let x := nth_error (ep_xs ep) (e_t e) in
      Ok (match e_action e with
          | None => SPlain x
          | Some a => SPrediction x [("seg1"%string, Some (Q4 1 0 0 0)); ("seg2"%string, a)]
          end)
  end.
End Env.
