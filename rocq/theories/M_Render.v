(** * Model of the rendering backends: src/ring/rendering/base_render.py, mujoco_render.py, vispy_render.py and
    vispy_visuals.py.

    The pixels are produced by MuJoCo and vispy, which are not modelled.  What is modelled is everything the code
    decides itself: which primitives with which sizes and poses are handed to the backend, which body each of them
    belongs to, which scene is used, and which poses are drawn in which order.  The meaning of a primitive is the one
    documented by the backend (file S_Render.v). *)
From Coq Require Import Reals Lra.
From Coq Require Import String ZArith Lia Bool List.
From Verif Require Import Prelude M_Math M_Geom M_Sys.
Import ListNotations.
Local Open Scope R_scope.

(** ** Frames of an XYZ geometry *)

(** base_render.py 263-279, _xyz_to_three_capsules: one capsule per axis, red, green and blue (the colours are not
    carried here).  maths.unit_vectors(i) are the unit vectors of the axes. *)
Definition xyz_to_three_capsules (size : R) (t : transform) : list geometry :=
  let radius := size / 7 in
  map (fun '(e, axis) =>
         mkGeom 0 (t_mul (Tr (vscale (/ 2) (vscale size e)) (quat_rot_axis axis (PI / 2))) t) (Capsule radius size))
      [(x_unit, y_unit); (y_unit, x_unit); (z_unit, z_unit)].

(** base_render.py 282-289, _replace_xyz_geoms; a geometry here carries the link it is attached to. *)
Definition replace_xyz_geoms (gs : list (Z * geometry)) : list (Z * geometry) :=
  flat_map (fun '(i, g) =>
    match g_shape g with
    | XYZ size => map (fun c => (i, c)) (xyz_to_three_capsules size (g_transform g))
    | _ => [(i, g)]
    end) gs.

(** ** MuJoCo *)

(** mujoco_render.py 134-151: the type and the sizes of a geometry in the XML text. *)
Inductive mj_prim :=
| MjBox (hx hy hz : R)
| MjSphere (r : R)
| MjCapsule (r half : R)
| MjCylinder (r half : R).

Section Rounding.
(** mujoco_render.py 158-160, _array_to_str: every number of a geometry is written with four decimals. *)
Variable rnd : R -> R.
Definition rnd3 (v : vec3) : vec3 := V3 (rnd (vx v)) (rnd (vy v)) (rnd (vz v)).
Definition rnd4 (q : quat) : quat := Q4 (rnd (qw q)) (rnd (qx q)) (rnd (qy q)) (rnd (qz q)).

Definition mj_type_size (s : shape) : result mj_prim :=
  match s with
  | Box x y z => Ok (MjBox (rnd (x / 2)) (rnd (y / 2)) (rnd (z / 2)))
  | Sphere r => Ok (MjSphere (rnd r))
  | Capsule r l => Ok (MjCapsule (rnd r) (rnd (l / 2)))
  | Cylinder r l => Ok (MjCylinder (rnd r) (rnd (l / 2)))
  | XYZ _ => Err ENotImpl
  end.

(** A geom element: primitive, position and quaternion in its body. *)
Record mj_geom := mkMj { mj_prim_of : mj_prim; mj_pos : vec3; mj_quat : quat }.

(** mujoco_render.py 134-155, _xml_str_one_geom (the colour is not carried). *)
Definition xml_geom (g : geometry) : result mj_geom :=
  do p <- mj_type_size (g_shape g);
  Ok (mkMj p (rnd3 (t_pos (g_transform g))) (rnd4 (qinv (t_rot (g_transform g))))).
End Rounding.

(** mujoco_render.py 199-214, MujocoScene.update: the pose of the body with the number of a link; the body "-1" keeps
    the pose it was created with, that of the world.  Links are in range (outside, jnp takes the last one). *)
Definition mj_body (xs : list transform) (i : Z) : vec3 * quat :=
  if (i =? -1)%Z then (vzero, qone)
  else let x := nth (Z.to_nat i) xs t_zero in (t_pos x, qinv (t_rot x)).

(** ** vispy *)

Inductive vp_prim :=
| VpBox (dx dy dz : R)
| VpSphere (r : R)
| VpCylinder (r l : R)
| VpCapsule (r cyl : R)          (* cyl: the length without the caps *)
| VpAxes.

(** vispy_visuals.py 197-203, capsule_mesh: the check and the length without caps. *)
Definition capsule_cyl_length (r l : R) : result R :=
  if Rlt_dec l (2 * r) then Err EValue else Ok (l - 2 * r).

(** vispy_render.py 121-135 and 261-302: the arguments of the visuals; the axes of an XYZ geometry have no size. *)
Definition vp_visual (s : shape) : result vp_prim :=
  match s with
  | Box x y z => Ok (VpBox x z y)
  | Sphere r => Ok (VpSphere r)
  | Cylinder r l => Ok (VpCylinder r l)
  | Capsule r l => do c <- capsule_cyl_length r l; Ok (VpCapsule r c)
  | XYZ _ => Ok VpAxes
  end.

(** vispy_render.py 304-322, _compute_transform_per_visual: the matrix is given as the block E and the last row. *)
Definition vp_transform (xs : list transform) (g : transform) (i : Z) : mat3 * vec3 :=
  let x := if (i =? -1)%Z then t_zero else nth (Z.to_nat i) xs t_zero in
  let x := t_mul g x in
  (quat_to_3x3 (t_rot x), t_pos x).
(** vispy multiplies a row vector with the matrix. *)
Definition vp_apply (m : mat3 * vec3) (p : vec3) : vec3 := vadd (vmrow p (fst m)) (snd m).

(** vispy_visuals.py 66-82, box_mesh: the eight corners. *)
Definition box_verts (dx dy dz : R) : list vec3 :=
  map (vscale (/ 2))
    [V3 (- dx) (- dy) (- dz); V3 dx (- dy) (- dz); V3 (- dx) dy (- dz); V3 dx dy (- dz);
     V3 (- dx) (- dy) dz; V3 dx (- dy) dz; V3 (- dx) dy dz; V3 dx dy dz].
(** vispy_visuals.py 83-100 and 101-118 *)
Definition box_edges : list (nat * nat) :=
  [(0,1);(0,2);(0,4);(1,3);(1,5);(2,3);(2,6);(3,7);(4,5);(4,6);(5,7);(6,7)]%nat.
Definition box_faces : list (nat * nat * nat) :=
  [(0,1,2);(1,2,3);(0,1,4);(1,4,5);(0,2,4);(2,4,6);(1,3,5);(3,5,7);(2,3,6);(3,6,7);(4,5,6);(5,6,7)]%nat.

(** np.linspace(a, b, n)[i], for n at least two. *)
Definition linspace (a b : R) (n i : nat) : R := a + INR i * ((b - a) / INR (n - 1)).

(** vispy_visuals.py 196-240, capsule_mesh: the vertex in row i and column j, with ns rows in each cap, nc rows
    between them and ncol columns (the code takes ns, nc >= 10 and ncol >= 20). *)
Definition capsule_vertex (r cyl : R) (ns nc ncol i j : nat) : vec3 :=
  let phi := linspace 0 (2 * PI) ncol j + PI / INR ncol * INR i in
  let theta_top := linspace 0 (PI / 2) ns in
  let theta_bottom := linspace (PI / 2) PI ns in
  if (i <? ns)%nat then
    V3 (r * cos (theta_top i) + cyl / 2)
       (r * cos phi * sin (theta_top i)) (r * sin phi * sin (theta_top i))
  else if (i <? ns + nc)%nat then
    V3 (linspace (- cyl / 2) (cyl / 2) nc (nc - 1 - (i - ns))) (r * cos phi) (r * sin phi)
  else
    V3 (r * cos (theta_bottom (i - ns - nc)%nat) - cyl / 2)
       (r * cos phi * sin (theta_bottom (i - ns - nc)%nat)) (r * sin phi * sin (theta_bottom (i - ns - nc)%nat)).

(** vispy_visuals.py 242-260, capsule_mesh: the triangles, as numbers row * ncol + column of vertices. *)
Definition capsule_faces (rows ncol : nat) : list (nat * nat * nat) :=
  flat_map (fun row =>
      map (fun c => ((c mod ncol) + ncol + row * ncol, ((c + 1) mod ncol) + row * ncol, (c mod ncol) + row * ncol)%nat)
          (seq 0 ncol)
      ++ map (fun c => (((c + 1) mod ncol) + ncol + row * ncol, ((c + 1) mod ncol) + row * ncol,
                        (c mod ncol) + ncol + row * ncol)%nat) (seq 0 ncol))%list
    (seq 0 (rows - 1)).

(** ** Bodies of the MuJoCo model *)
Section Bodies.
Context {G Cam : Type}.
Local Open Scope Z_scope.

(** mujoco_render.py 29-53: a camera (or light) is accepted if its parent has a geometry; one of the world is put
    directly into the world body if the world has no geometry. *)
Definition has_parent (gs : list (Z * G)) (i : Z) : bool := existsb (fun g => fst g =? i) gs.
Definition check_attached (gs : list (Z * G)) (cams : list (Z * list Cam)) : result (list Cam) :=
  foldM (fun acc '(i, cs) =>
    if negb (has_parent gs (-1)) && (i =? -1) then Ok (acc ++ cs)
    else if has_parent gs i then Ok acc else Err EAssertion) [] cams.

(** mujoco_render.py 56-64: the loop which appends every geometry to the group of its link, counting parent upwards
    from -1 until it is the link of the geometry; it does not end if the link is already passed. *)
Definition next_parent (parent i : Z) : result Z := if parent <=? i then Ok i else Err EOutOfFuel.
Definition append_geom (groups : list (Z * list G)) (i : Z) (g : G) : list (Z * list G) :=
  map (fun '(k, l) => if k =? i then (k, l ++ [g])%list else (k, l)) groups.
Definition group_geoms (parents : list Z) (gs : list (Z * G)) : result (list (Z * list G)) :=
  do st <- foldM (fun '(parent, groups) '(i, g) =>
             do p <- next_parent parent i;
             Ok (p, append_geom groups p g)) (-1, map (fun p => (p, [])) parents) gs;
  Ok (snd st).

(** mujoco_render.py 14-76, 112-131: the bodies of the model, with the cameras and lights of each; parents is the set
    of the links with geometries in the order in which Python runs through it. *)
Record mj_model := mkModel {
  mm_world_cams : list Cam; mm_world_lights : list Cam;
  mm_bodies : list (Z * (list G * list Cam * list Cam));
  mm_target : Z }.
Definition find_cams (cams : list (Z * list Cam)) (i : Z) : list Cam :=
  match find (fun c => fst c =? i) cams with Some c => snd c | None => [] end.
Definition target_body (parents : list Z) : Z :=
  match filter (fun p => negb (p =? -1)) parents with
  | [] => -1
  | p :: r => fold_left Z.min r p
  end.
Definition build_model (parents : list Z) (gs : list (Z * G)) (cams lights : list (Z * list Cam)) : result mj_model :=
  let gs := sort_geoms gs in
  do wc <- check_attached gs cams;
  do wl <- check_attached gs lights;
  do groups <- group_geoms parents gs;
  Ok (mkModel wc wl (map (fun '(p, l) => (p, (l, find_cams cams p, find_cams lights p))) groups) (target_body parents)).
End Bodies.
Arguments mj_model : clear implicits.

(** ** Scenes and frames *)
Section Scenes.
(** Args: the system, the backend and the scene arguments, without "vispy_backend"; VB: the value of that argument.
    build makes the scene (constructor, replacement of xyz, colours, init) and may raise. *)
Variables Args VB Scene Frame Pose : Type.
Variable args_eqb : Args -> Args -> bool.
Variable vb_eqb : option VB -> option VB -> bool.
Variable uses_vispy : Args -> bool.
Variable build : Args -> option VB -> result Scene.

(** The module variables _args and _scene, base_render.py 47-48. *)
Record cache := mkCache { c_args : option (Args * option VB); c_scene : option Scene }.
Definition cache0 : cache := mkCache None None.

(** base_render.py 51-91, _load_scene.  The stored argument dict is the one from which "vispy_backend" is popped, so
    that argument is no longer part of the stored arguments afterwards. *)
Definition load_scene (c : cache) (a : Args) (vb : option VB) : cache * result (option Scene) :=
  let same := match c_args c with Some (a', vb') => args_eqb a' a && vb_eqb vb' vb | None => false end in
  if same then (c, Ok (c_scene c))
  else
    let stored := (a, if uses_vispy a then None else vb) in
    match build a vb with
    | Ok s => (mkCache (Some stored) (Some s), Ok (Some s))
    | Err e => (mkCache (Some stored) (c_scene c), Err e)
    end.

(** base_render.py 122-123: range(0, len(xs), render_every_nth) *)
Fixpoint every (k n : nat) (xs : list Pose) : list Pose :=
  match xs with
  | [] => []
  | x :: r => match k with 0%nat => x :: every (n - 1) n r | S k' => every k' n r end
  end.
Definition select (n : Z) (xs : list Pose) : result (list Pose) :=
  if (n =? 1)%Z then Ok xs
  else if (n =? 0)%Z then Err EValue
  else if (n <? 0)%Z then Ok []
  else Ok (every 0 (Z.to_nat n) xs).

Variable links : Pose -> option nat.         (* number of links, if the pose has two dimensions *)
Variable draw : Scene -> Pose -> Frame.      (* scene.update(x), then scene.render(camera) *)

(** base_render.py 111-147, render, for a list of poses; n_links is the number of links of the system. *)
Definition data_check (n_links : nat) (x : Pose) : result unit :=
  match links x with
  | None => Err EAssertion
  | Some k => if Nat.eqb k n_links then Ok tt else Err EAssertion
  end.
Definition render (c : cache) (a : Args) (vb : option VB) (n_links : nat) (nth : Z) (xs : list Pose)
  : cache * result (list Frame) :=
  match select nth xs with
  | Err e => (c, Err e)
  | Ok xs =>
      match mapM (data_check n_links) xs with
      | Err e => (c, Err e)
      | Ok _ =>
          let '(c', r) := load_scene c a vb in
          (c', match r with
               | Err e => Err e
               | Ok (Some s) => Ok (map (draw s) xs)
               | Ok None => match xs with [] => Ok [] | _ => Err EOther end     (* None.update *)
               end)
      end
  end.
End Scenes.

(** ** Colours: base_render.py 246-260, _color_to_rgba *)
Inductive color := CNone | CTuple (l : list R) | CName (s : string) | COther.
Definition color_to_rgba (rgbas : list (string * list R)) (c : color) : result (list R) :=
  match c with
  | CNone => match dget String.eqb rgbas "self"%string with Some v => Ok v | None => Err EKey end
  | CTuple l => if Nat.eqb (length l) 3 then Ok (l ++ [1])%list else Ok l
  | CName s => match dget String.eqb rgbas s with Some v => Ok v | None => Err EKey end
  | COther => Err ENotImpl
  end.
