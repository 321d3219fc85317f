(** * Model of building data generators (src/ring/algorithms/generator/base.py 24-101, 264-332).

    Dictionaries and the list of motion configurations are objects at addresses, so that sharing and changing them in place
    is visible.  A default argument `dict()` is such an object as well, one for the whole program.  Simplifications: values
    inside a dictionary are immutable; warnings are not modelled; options that are neither dictionaries nor looked at while
    building are one value [o_rest]. *)
From Coq Require Import Reals ZArith String Ascii Bool List.
From Verif Require Import Prelude M_Sys M_Compose M_Math M_Geom M_Xml M_Pd M_Artifact.
Import ListNotations.
Local Open Scope string_scope.
Local Open Scope list_scope.

Section Build.
Context {J V C X : Type}.
Variable W : widths.
Variable print : R -> string.
Variable print_int : Z -> string.
Variable float_of : string -> option R.
Variable jinit : list string -> result (list J).
Variable registered has_init : string -> bool.
Variable reload : xsys J -> result (xsys J).
Variable jpad : list J -> J -> J.
Variable jzero : J -> J.
(** A list of strings as a value of a dictionary. *)
Variable names : list string -> V.
(** MotionConfig.is_feasible *)
Variable is_feasible : C -> result bool.

Definition dict := list (string * V).
(** The arguments of inject_subsystems given by keywords; others are ignored (motion_artifacts.py 46-56). *)
Variable art_of : dict -> result art_opts.

(** ** The check of simulated systems: finalize_fns.py 196-214 *)
Inductive test_arg := TName (n : string) | TNum (x : R).
Fixpoint nums (l : list test_arg) : result (list R) :=
  match l with
  | [] => Ok []
  | TNum x :: r => do xs <- nums r; Ok (x :: xs)
  | TName _ :: _ => Err EType
  end.
(** x > 0 *)
Definition above_zero (x : R) : bool := negb (Rleb x 0).
(** finalize_fns.py 200-212 *)
Definition test_step (s : xsys J) (_ : option unit) (_ : idx_map) (ps : list (piece test_arg)) (_ : unit) : result (unit * unit) :=
  match ps with
  | [One (TName n); One (TNum m); Many d] =>
      do d <- nums d;
      do cs <- children s n;
      do _ <- (if (length cs =? 0)%nat then assert_ ((length d =? 0)%nat || above_zero m) else Ok tt);
      do _ <- assert_ ((length d =? 0)%nat || forallb above_zero d);
      Ok (tt, tt)
  | _ => Err EType
  end.
(** finalize_fns.py 196-214 *)
Definition assert_test_system (s : xsys J) : result unit :=
  do _ <- scan W s (test_step s) [TL; TL; TD]
            [map TName (link_names s); map (fun l => TNum (i_mass (M_Geom.pl_inertia l))) (links s); map TNum (link_damping s)] false tt;
  Ok tt.

(** ** Objects *)
Inductive obj := ODict (d : dict) | OConfigs (cs : list C).
Definition heap := list obj.
Fixpoint put_obj (h : heap) (a : nat) (x : obj) : heap :=
  match h, a with
  | [], _ => []
  | _ :: r, 0%nat => x :: r
  | y :: r, S a => y :: put_obj r a x
  end.
Definition get_dict (h : heap) (a : nat) : result dict := match nth_error h a with Some (ODict d) => Ok d | _ => Err EType end.
Definition get_configs (h : heap) (a : nat) : result (list C) := match nth_error h a with Some (OConfigs cs) => Ok cs | _ => Err EType end.

(** The arguments of RCMG, base.py 25-54; sys_ml = None means the first system. *)
Record options := mkOpts {
  o_config : nat;
  o_imu_kw : nat; o_axes_kw : nat; o_incl_kw : nat; o_full_kw : nat; o_hz_kw : nat; o_art_kw : nat; o_dyn_kw : nat;
  o_axes : bool; o_relpose : bool; o_incl : bool; o_artifacts : bool; o_random_artifacts : bool; o_dynsim : bool;
  o_ml : option (xsys J);
  o_rest : X }.

(** ** base.py 264-271 *)
Definition copy_obj (h : heap) (a : nat) : heap * nat :=
  match nth_error h a with Some (ODict d) => (h ++ [ODict d], length h) | _ => (h, a) end.
Definition copy_dicts (h : heap) (o : options) : heap * options :=
  let '(h, cfg) := copy_obj h (o_config o) in
  let '(h, a1) := copy_obj h (o_imu_kw o) in
  let '(h, a2) := copy_obj h (o_axes_kw o) in
  let '(h, a3) := copy_obj h (o_incl_kw o) in
  let '(h, a4) := copy_obj h (o_full_kw o) in
  let '(h, a5) := copy_obj h (o_hz_kw o) in
  let '(h, a6) := copy_obj h (o_art_kw o) in
  let '(h, a7) := copy_obj h (o_dyn_kw o) in
  (h, mkOpts cfg a1 a2 a3 a4 a5 a6 a7 (o_axes o) (o_relpose o) (o_incl o) (o_artifacts o) (o_random_artifacts o) (o_dynsim o) (o_ml o) (o_rest o)).

(** What the functions made by _build_mconfig_batched_generator close over. *)
Record closure := mkCl { c_sys : xsys J; c_noimu : option (xsys J); c_opts : options }.

(** base.py 305-310; an undefined variable is None *)
Definition noimu_of (o : options) (ml : xsys J) : result (option (xsys J)) :=
  if o_axes o || o_relpose o || o_incl o then
    if (0 <? length (findall_imus ml))%nat then do na <- make_sys_noimu W xml_ops ml None; Ok (Some (fst na)) else Ok (Some ml)
  else Ok None.
(** base.py 312-329 *)
Definition attach_imus (h : heap) (o : options) (s : xsys J) : heap * result (xsys J) :=
  if o_artifacts o then
    if negb (o_dynsim o) then (h, Err EAssertion)
    else
      let unactuated := unactuated_subsystem s in
      match (do kw <- get_dict h (o_art_kw o); do a <- art_of kw;
             inject_subsystems W print print_int float_of jinit registered has_init reload jpad jzero a s) with
      | Err e => (h, Err e)
      | Ok s' =>
          match get_dict h (o_dyn_kw o) with
          | Err e => (h, Err e)
          | Ok d =>
              if dmem String.eqb d "unactuated_subsystems" then (h, Err EAssertion)
              else
                let h := put_obj h (o_dyn_kw o) (ODict (dset String.eqb d "unactuated_subsystems" (names unactuated))) in
                (h, do kw <- get_dict h (o_art_kw o);
                    do _ <- (if dmem String.eqb kw "prob_rigid" then assert_ (o_random_artifacts o) else Ok tt);
                    Ok s')
          end
      end
  else (h, Ok s).
(** base.py 275-332, 422 without the copying *)
Definition build_body (h : heap) (o : options) (s ml : xsys J) : heap * result closure :=
  match noimu_of o ml with
  | Err e => (h, Err e)
  | Ok noimu =>
      let '(h, r) := attach_imus h o s in
      (h, do s' <- r;
          do _ <- (if o_dynsim o then assert_test_system s' else Ok tt);
          Ok (mkCl s' noimu o))
  end.
(** base.py 274-332 *)
Definition build (h : heap) (o : options) (s ml : xsys J) : heap * result closure :=
  let '(h, o) := copy_dicts h o in build_body h o s ml.

(** base.py 64-95 *)
Fixpoint build_all (h : heap) (o : options) (ss : list (xsys J)) (ml : xsys J) : heap * result (list closure) :=
  match ss with
  | [] => (h, Ok [])
  | s :: r =>
      match build h o s ml with
      | (h, Err e) => (h, Err e)
      | (h, Ok c) => let '(h, cs) := build_all h o r ml in (h, do cs <- cs; Ok (c :: cs))
      end
  end.
(** base.py 25-97.  [ss]: the list of systems, after to_list. *)
Definition rcmg (h : heap) (o : options) (ss : list (xsys J)) : heap * result (list closure) :=
  match (do ml <- match o_ml o with Some ml => Ok ml | None => get_nat ss 0 end;
         do cs <- get_configs h (o_config o);
         do _ <- mapM (fun c => do b <- is_feasible c; assert_ b) cs;
         Ok ml) with
  | Err e => (h, Err e)
  | Ok ml => build_all h o ss ml
  end.

(** ** What a call of a generator reads from its closure: base.py 334-420. *)
Record reads := mkReads {
  r_sys : xsys J; r_noimu : option (xsys J); r_configs : list C;
  r_imu : dict; r_axes : dict; r_incl : dict; r_full : dict; r_hz : dict; r_art : dict; r_dyn : dict;
  r_opts : bool * bool * bool * bool * bool * bool; r_rest : X }.
Definition call_reads (h : heap) (c : closure) : result reads :=
  let o := c_opts c in
  do cs <- get_configs h (o_config o);
  do d1 <- get_dict h (o_imu_kw o);
  do d2 <- get_dict h (o_axes_kw o);
  do d3 <- get_dict h (o_incl_kw o);
  do d4 <- get_dict h (o_full_kw o);
  do d5 <- get_dict h (o_hz_kw o);
  do d6 <- get_dict h (o_art_kw o);
  do d7 <- get_dict h (o_dyn_kw o);
  Ok (mkReads (c_sys c) (c_noimu c) cs d1 d2 d3 d4 d5 d6 d7
        (o_axes o, o_relpose o, o_incl o, o_artifacts o, o_random_artifacts o, o_dynsim o) (o_rest o)).

(** ** A program that makes objects, changes them, builds generators and calls them. *)
Inductive event :=
| New (x : obj)
| Change (a : nat) (x : obj)
| Build (o : options) (ss : list (xsys J)).
(** The heap, the addresses the program holds, and the results of its calls of RCMG. *)
Record state := mkSt { st_heap : heap; st_own : list nat; st_built : list (result (list closure)) }.
Definition step (st : state) (e : event) : state :=
  match e with
  | New x => mkSt (st_heap st ++ [x]) (length (st_heap st) :: st_own st) (st_built st)
  | Change a x => mkSt (put_obj (st_heap st) a x) (st_own st) (st_built st)
  | Build o ss => let '(h, r) := rcmg (st_heap st) o ss in mkSt h (st_own st) (st_built st ++ [r])
  end.
Definition run_program (st : state) (es : list event) : state := fold_left step es st.
End Build.
