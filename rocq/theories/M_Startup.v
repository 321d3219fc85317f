(** * ring.setup (src/ring/__init__.py 116-163): the module's global state over a process.

    The registry of joint types is that of M_Config.v.  Times are a [T]; time.time() and hex(hash(.)) are arguments. *)
From Coq Require Import Reals ZArith String Bool List.
From Verif Require Import Prelude M_Sys M_Rand M_Config.
Import ListNotations.
Local Open Scope string_scope.
Local Open Scope list_scope.

Notation "'sdo' x <- m ; k" := (sbind m (fun x => k)) (at level 200, x pattern, m at level 100, k at level 200, right associativity).
Section Startup.
Context {A B J Gn T KI KS : Type}.
Notation jmodel := (@jmodel A B J).
Notation reg := (@reg A B J Gn).
Notation sm := (@sm A B J Gn).
Notation draw := (config -> A -> result B).
(** The parts of the joint models that the registry does not look at. *)
Record makers := mkMakers {
  mk_rr : draw * J;                              (* rr_joint.py 10-27 *)
  mk_imp : KI -> draw * J;                       (* rr_imp_joint.py 18-52, from config_res and ang_max_deg *)
  mk_saddle : draw * J;                          (* rsaddle_joint.py 11-32 *)
  mk_suntay : KS -> result (draw * J) }.         (* suntay.py 93-294: the factories of the curves can raise *)
Variable M : makers.

(** A call f( **kwargs ) of a function without parameters: any keyword is a TypeError. *)
Definition no_kwargs (kw : list string) : sm unit := match kw with [] => ret tt | _ => raise EType end.
Definition model (dj : draw * J) (motions : nat) : jmodel := mkJM (Some (fst dj)) motions (snd dj).
(** rr_joint.py 9-29 *)
Definition register_rr_joint (kw : list string) : sm unit :=
  sdo _ <- no_kwargs kw; register_new_joint_type "rr" (model (mk_rr M) 1) 1 None true.
(** rr_imp_joint.py 13-59.  Unknown keywords, then config_res and ang_max_deg, then name. *)
Definition register_rr_imp_joint (kw : list string) (k : KI) (name : option string) : sm unit :=
  sdo _ <- no_kwargs kw;
  register_new_joint_type (match name with Some n => n | None => "rr_imp" end) (model (mk_imp M k) 2) 2 (Some 2%nat) true.
(** rsaddle_joint.py 10-34 *)
Definition register_rsaddle_joint (kw : list string) : sm unit :=
  sdo _ <- no_kwargs kw; register_new_joint_type "rsaddle" (model (mk_saddle M) 2) 2 None true.
(** suntay.py 90-295 *)
Definition register_suntay (k : KS) (name : option string) : sm unit :=
  sdo dj <- lift (fun _ => mk_suntay M k);
  register_new_joint_type (match name with Some n => n | None => "suntay" end) (model dj 1) 1 None true.

(** __init__.py 121-128; None where the argument is None *)
Record args := mkArgs {
  a_rr : option (list string);
  a_imp : option (list string * KI * option string);
  a_saddle : option (list string);
  a_suntay : option (KS * option string);
  a_timing : option T;
  a_id : option string }.
(** The defaults; [k] stands for the default config_res and ang_max_deg. *)
Definition default_args (k : KI) : args := mkArgs (Some []) (Some ([], k, None)) (Some []) None None None.

(** __init__.py 117-118 and the registry *)
Record glob := mkGlob { gl_reg : reg; gl_timing : option T; gl_id : option string }.
(** __init__.py 136-146 *)
Definition registrations (a : args) : sm unit :=
  sdo _ <- match a_rr a with Some kw => register_rr_joint kw | None => ret tt end;
  sdo _ <- match a_imp a with Some (kw, k, name) => register_rr_imp_joint kw k name | None => ret tt end;
  sdo _ <- match a_saddle a with Some kw => register_rsaddle_joint kw | None => ret tt end;
  match a_suntay a with Some (k, name) => register_suntay k name | None => ret tt end.
(** __init__.py 121-158.  [now1], [now2]: what the two calls of time.time() return. *)
Definition setup (hexhash : T -> string) (now1 now2 : T) (a : args) (s : glob) : glob * result unit :=
  match registrations a (gl_reg s) with
  | (r, Err e) => (mkGlob r (gl_timing s) (gl_id s), Err e)
  | (r, Ok _) =>
      let timing := match gl_timing s with None => Some now1 | t => t end in
      let timing := match a_timing a with Some t => Some t | None => timing end in
      let id := match gl_id s with None => Some (hexhash now2) | i => i end in
      let id := match a_id a with Some i => Some i | None => id end in
      (mkGlob r timing id, Ok tt)
  end.

(** What a user of the library does to this state. *)
Inductive call : Type :=
| CSetup (now1 now2 : T) (a : args)
| COverwrite (jt : string) (ch : changes)
| CRegister (jt : string) (jm : jmodel) (q_width : nat) (qd_width : option nat) (overwrite : bool).
Definition do_call (hexhash : T -> string) (c : call) (s : glob) : glob * result unit :=
  match c with
  | CSetup n1 n2 a => setup hexhash n1 n2 a s
  | COverwrite jt ch => let (r, x) := overwrite_for_joint_type jt ch (gl_reg s) in (mkGlob r (gl_timing s) (gl_id s), x)
  | CRegister jt jm q qd ow => let (r, x) := register_new_joint_type jt jm q qd ow (gl_reg s) in (mkGlob r (gl_timing s) (gl_id s), x)
  end.
(** __init__.py 161: importing the module runs setup() once; [r] is the registry of jcalc.py. *)
Definition import_ring (hexhash : T -> string) (now1 now2 : T) (k : KI) (r : reg) : glob * result unit :=
  setup hexhash now1 now2 (default_args k) (mkGlob r None None).
End Startup.
