(** * Model of non-rigid IMU attachments (src/ring/algorithms/generator/motion_artifacts.py).

    Simplifications: warnings are not modelled; arrays with a time axis are lists of rows; multiplying and
    negating numbers is exact. *)
From Coq Require Import Reals ZArith String Ascii Bool List.
From Verif Require Import Prelude M_Sys M_Compose M_Math M_Geom M_Xml M_Pd.
Import ListNotations.
Local Open Scope string_scope.
Local Open Scope list_scope.

(** lines 12-13 *)
Definition imu_reference_link_name (imu : string) : string := String "_" imu.
(** lines 16-17 *)
Definition unactuated_subsystem {K L G O} (s : System K L G O) : list string := map imu_reference_link_name (findall_imus s).

Section Art.
Context {J : Type}.
Variable W : widths.
Variable print : R -> string.
Variable print_int : Z -> string.
Variable float_of : string -> option R.
Variable jinit : list string -> result (list J).
(** The registry of joint models, as change_joint_type sees it (base.py 552-592). *)
Variable registered has_init : string -> bool.
Variable reload : xsys J -> result (xsys J).
(** inject_sys.py 66-84: a link's joint parameters filled up with the entries only the others have. *)
Variable jpad : list J -> J -> J.
(** tree_utils.tree_zeros_like *)
Variable jzero : J -> J.

Definition set_params (j : J) (l : plink J) : plink J :=
  mkPL (pl_t1 l) (pl_pmin l) (pl_pmax l) j (pl_inertia l) (pl_t2 l) (pl_t l).
Definition pad (others : list (plink J)) (l : plink J) : plink J := set_params (jpad (map pl_params others) (pl_params l)) l.

(** lines 20-43 *)
Definition subsystem_factory (imu : string) (pos_min_max stif damp : R) : result (xsys J) :=
  do _ <- assert_ (Rleb 0 pos_min_max);
  let three sign x := String.concat " " (repeat (sign ++ print x)%string 3) in
  let pos := [("pos_min", three "-" pos_min_max); ("pos_max", three "" pos_min_max)] in
  let damp := (stif * damp)%R in
  load W print_int float_of jinit
    (Elem "x_xy" [] [Elem "worldbody" []
      [Elem "body" ([("name", imu); ("joint", "p3d")] ++ (if Req_EM_T pos_min_max 0 then [] else pos)
                    ++ [("spring_stiff", three "" stif); ("damping", three "" damp)]) []]]).

(** The keyword arguments of inject_subsystems, lines 46-56. *)
Record art_opts := mkArt { a_pos : R; a_rstif : R; a_rdamp : R; a_tstif : R; a_tdamp : R }.

Definition set_stif_damp (s : xsys J) (st d : list R) : xsys J :=
  mkSys (link_parents s) (links s) (link_types s) d (link_armature s) st (link_spring_zeropoint s) (sys_dt s) (geoms s) (gravity s)
        (integration_method s) (mass_mat_iters s) (link_names s) (model_name s) (omc s).

(** lines 59-76: one turn of the loop *)
Definition inject_step (o : art_opts) (s : xsys J) (imu : string) : result (xsys J) :=
  let spher_stif := repeat (a_rstif o) 3 in
  let spher_damp := map (fun x => x * a_rdamp o)%R spher_stif in
  do s <- unfreeze W xml_ops registered has_init reload s imu "spherical";
  do md <- idx_dict (dW W) s;
  do sl <- dgetE String.eqb md imu;
  do st <- set_slice (link_spring_stiffness s) sl spher_stif;
  do d <- set_slice (link_damping s) sl spher_damp;
  let s := set_stif_damp s st d in
  do s <- change_link_name s imu (imu_reference_link_name imu);
  do sub <- subsystem_factory imu (a_pos o) (a_tstif o) (a_tdamp o);
  inject_system W xml_ops pad s sub (Some (imu_reference_link_name imu)).

(** lines 79-87: [m] is imu_idx_to_name_map *)
Definition move_geoms (m : list (Z * string)) (s : xsys J) : result (list (Z * xgeom)) :=
  mapM (fun g => match dget Z.eqb m (fst g) with
                 | Some imu => do i <- name_to_idx s imu; Ok (Z.of_nat i, snd g)
                 | None => Ok g end) (geoms s).

(** lines 46-109 *)
Definition inject_subsystems (o : art_opts) (s : xsys J) : result (xsys J) :=
  do m <- mapM (fun imu => do i <- name_to_idx s imu; Ok (Z.of_nat i, imu)) (findall_imus s);
  do s' <- foldM (inject_step o) s (findall_imus s);
  do gs <- move_geoms m s';
  do s' <- parse W xml_ops (set_links_geoms s' (links s') gs);
  let s' := set_links_geoms s' (map (fun l => set_params (jzero (pl_params l)) l) (links s')) (geoms s') in
  do x <- save W print print_int s';
  load W print_int float_of jinit x.

(** ** Hiding the injected bodies *)

(** lines 215-243.  [q]: one row per time step; [x]: one list of link poses per time step. *)
Definition match_q_x {X} (small : xsys J) (q : list (list R)) (x : list (list X)) (large : xsys J) (skip : list string)
  : result (list (list R) * list (list X)) :=
  do nq <- q_size W large;
  do _ <- assert_ (forallb (fun r => length r =? nq)%nat q);
  do _ <- assert_ (forallb (fun r => length r =? num_links large)%nat x);
  do m <- idx_dict (qW W) large;
  do _ <- assert_ (length (link_names small) =? num_links small)%nat;
  do is <- mapM (name_to_idx large) (link_names small);
  do sls <- mapM (dgetE String.eqb m) (filter (fun n => negb (memS n skip)) (link_names small));
  do _ <- match sls with [] => Err EValue | _ => Ok tt end;          (* jnp.concatenate([]) *)
  let q' := map (fun row => concat (map (take_slice row) sls)) q in
  do x' <- mapM (fun row => mapM (get_nat row) is) x;
  Ok (q', x').

(** lines 246-260, the part of [extras] that changes *)
Definition hide_injected_bodies {X} (q : list (list R)) (x : list (list X)) (sys_x : xsys J)
  : result (list (list R) * list (list X) * xsys J) :=
  let imus := findall_imus sys_x in
  do s <- delete_subsystem W xml_ops sys_x imus true;
  do s <- foldM (fun s imu => do s <- change_link_name s (imu_reference_link_name imu) imu;
                              change_joint_type W xml_ops registered has_init reload s imu "frozen" None None None None) s imus;
  do qx <- match_q_x s q x sys_x imus;
  Ok (qx, s).
End Art.
