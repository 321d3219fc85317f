(** * Model of the joint type registry (src/ring/algorithms/jcalc.py, src/ring/base.py). *)
From Coq Require Import String ZArith Lia Bool List.
From Verif Require Import Prelude M_Sys.
Import ListNotations.
Local Open Scope string_scope.

(** jcalc.py 503-529: of a JointModel only the number of motion columns and an opaque rest matter here. *)
Record joint_model (X : Type) := mkJM { jm_motion : nat; jm_rest : X }.
Arguments mkJM {X}.
Arguments jm_motion {X}.
Arguments jm_rest {X}.

(** The three module level dictionaries: jcalc.py 934-1050, base.py 369-400. *)
Record registry (X : Type) := mkReg {
  r_models : list (string * joint_model X);
  r_q : list (string * nat);
  r_qd : list (string * nat) }.
Arguments mkReg {X}.
Arguments r_models {X}.
Arguments r_q {X}.
Arguments r_qd {X}.

(** The widths other modules see. *)
Definition reg_widths {X} (r : registry X) : widths :=
  mkW (dget String.eqb (r_q r)) (dget String.eqb (r_qd r)).

Section Registry.
Context {X : Type}.

(** [dic.pop(k)]: KeyError when absent. *)
Definition dpop {V} (d : list (string * V)) (k : string) : result (list (string * V)) :=
  if dmem String.eqb d k then Ok (ddel String.eqb d k) else Err EKey.

(** jcalc.py 1060-1090.  The registry is mutated in place, so the registry after the call is returned
    together with the outcome, also when an exception is raised. *)
Definition register_new_joint_type (r : registry X) (joint_type : string) (m : joint_model X)
    (q_width : nat) (qd_width : option nat) (overwrite : bool) : registry X * result unit :=
  if String.eqb joint_type "default" then (r, Err EAssertion)
  else
    let exists_ := dmem String.eqb (r_models r) joint_type in
    (* lines 1071-1078: pop from Q_WIDTHS, then QD_WIDTHS, then _joint_types *)
    let '(r1, out) :=
      if exists_ && overwrite then
        match dpop (r_q r) joint_type with
        | Err e => (r, Err e)
        | Ok q => match dpop (r_qd r) joint_type with
                  | Err e => (mkReg (r_models r) q (r_qd r), Err e)
                  | Ok qd => (mkReg (ddel String.eqb (r_models r) joint_type) q qd, Ok tt)
                  end
        end
      else if exists_ then (r, Err EAssertion) else (r, Ok tt) in
    match out with
    | Err e => (r1, Err e)
    | Ok _ =>
        let d := match qd_width with Some d => d | None => q_width end in
        if Nat.eqb (jm_motion m) d then
          (mkReg (dset String.eqb (r_models r1) joint_type m) (dset String.eqb (r_q r1) joint_type q_width)
                 (dset String.eqb (r_qd r1) joint_type d), Ok tt)
        else (r1, Err EAssertion)
    end.

(** jcalc.py 1053-1057 *)
Definition get_joint_model (r : registry X) (t : string) : result (joint_model X) :=
  do _ <- assert_ (dmem String.eqb (r_models r) t); dgetE String.eqb (r_models r) t.

(** A program that keeps calling register_new_joint_type, catching exceptions. *)
Record reg_call := mkCall {
  rc_type : string; rc_model : joint_model X; rc_q : nat; rc_qd : option nat; rc_over : bool }.
Definition call_reg (r : registry X) (c : reg_call) : registry X :=
  fst (register_new_joint_type r (rc_type c) (rc_model c) (rc_q c) (rc_qd c) (rc_over c)).
Definition call_all (r : registry X) (cs : list reg_call) : registry X := fold_left call_reg cs r.

(** The registry right after importing the package: motion columns as listed in jcalc.py 934-1050. *)
Definition builtin_models (rest : string -> X) : list (string * joint_model X) :=
  map (fun tn => (fst tn, mkJM (snd tn) (rest (fst tn))))
    [("free", 6); ("free_2d", 3); ("frozen", 0); ("spherical", 3); ("p3d", 3); ("cor", 9);
     ("rx", 1); ("ry", 1); ("rz", 1); ("px", 1); ("py", 1); ("pz", 1); ("saddle", 2)]%nat.
Definition builtin_registry (rest : string -> X) : registry X :=
  mkReg (builtin_models rest) builtin_Q builtin_QD.
End Registry.
Arguments reg_call X : clear implicits.

(** jcalc.py 1093-1099: a joint sees the entry of joint_params under its own type name, else the default. *)
Definition limit_scope_of_joint_params {V} (joint_type : string) (jp : list (string * V)) : result V :=
  match dget String.eqb jp joint_type with
  | Some v => Ok v
  | None => dgetE String.eqb jp "default"
  end.
