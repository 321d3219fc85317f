(** * Model of the camera and light dictionaries of a scene as objects: rendering/mujoco_render.py 162-187 (MujocoScene.__init__),
    rendering/base_render.py 47-91 (_load_scene with the MuJoCo backend) and utils/utils.py 19-34 (tree_equal).

    Dictionaries are objects at addresses: the caller, the module variable _args, the scene and the default argument share them.
    Simplifications: dictionaries are listed by key; building a scene does not raise (C79 has the case where it does). *)
From Coq Require Import String ZArith Bool List.
From Verif Require Import Prelude.
Import ListNotations.
Local Open Scope string_scope.
Local Open Scope list_scope.

(** mujoco_render.py 170-171: an XML text, or several. *)
Inductive val := Str (s : string) | Strs (l : list string).
Definition dic := list (Z * val).
(** What is put into the model for a value: the strings of the list. *)
Definition texts (v : val) : list string := match v with Str s => [s] | Strs l => l end.
(** mujoco_render.py 179-183, which changes the dictionary in place *)
Definition to_list (d : dic) : dic := map (fun '(k, v) => (k, match v with Str s => Strs [s] | Strs l => Strs l end)) d.
(** utils.py 19-34 on such dictionaries: a text and a list are never equal. *)
Definition val_dec (a b : val) : {a = b} + {a <> b}.
Proof. decide equality; [apply string_dec|apply (list_eq_dec string_dec)]. Defined.
Definition dic_dec (a b : dic) : {a = b} + {a <> b}.
Proof. apply list_eq_dec. intros [i v] [j w]. destruct (Z.eq_dec i j), (val_dec v w); [left|right|right|right]; congruence. Defined.
Definition dic_eqb (a b : dic) : bool := if dic_dec a b then true else false.

Definition heap := nat -> dic.
Definition put (h : heap) (x : nat) (d : dic) : heap := fun y => if Nat.eqb y x then d else h y.

Section SceneArgs.
(** Args: the system and the other scene arguments; build: what _build_model_of_geoms makes of them, the cameras and the lights. *)
Variables Args Scene : Type.
Variable args_eqb : Args -> Args -> bool.
Variable build : Args -> list (Z * list string) -> list (Z * list string) -> Scene.
Definition contents (d : dic) : list (Z * list string) := map (fun '(k, v) => (k, texts v)) d.

(** The dictionaries and the module variables _args and _scene. *)
Record state := mkState { st_heap : heap; st_args : option (Args * nat * nat); st_scene : option Scene }.

(** base_render.py 51-91.  _args keeps references to the dictionaries, so they are compared as they are now. *)
Definition load_scene (st : state) (a : Args) (cams lights : nat) : state * option Scene :=
  let h := st_heap st in
  let same := match st_args st with
              | None => false
              | Some (a', c', l') => args_eqb a' a && dic_eqb (h c') (h cams) && dic_eqb (h l') (h lights)
              end in
  if same then (st, st_scene st)
  else
    let h := put h cams (to_list (h cams)) in
    let h := put h lights (to_list (h lights)) in
    let s := build a (contents (h cams)) (contents (h lights)) in
    (mkState h (Some (a, cams, lights)) (Some s), Some s).

(** A program: the caller makes or changes a dictionary, or renders. *)
Inductive event := Write (x : nat) (d : dic) | Render (a : Args) (cams lights : nat).
Fixpoint run (st : state) (es : list event) : state * list (option Scene) :=
  match es with
  | [] => (st, [])
  | Write x d :: r => run (mkState (put (st_heap st) x d) (st_args st) (st_scene st)) r
  | Render a c l :: r => let '(st, s) := load_scene st a c l in let '(st, ss) := run st r in (st, s :: ss)
  end.
End SceneArgs.
Arguments Write {Args}. Arguments Render {Args}. Arguments mkState {Args Scene}. Arguments st_heap {Args Scene}. Arguments st_args {Args Scene}. Arguments st_scene {Args Scene}.
