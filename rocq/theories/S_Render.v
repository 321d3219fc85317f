(** * Specification vocabulary for the rendering properties.

    The solids of the geometries are those of base.py 258-334 (a cylinder and a capsule have their length along the x
    axis of the geometry; the inertia of a capsule is that of a cylinder of the given length with two half spheres).
    The solids of the primitives are those documented by the backends. *)
From Coq Require Import Reals Lra.
From Coq Require Import ZArith List.
From Verif Require Import Prelude M_Math M_Geom S_Kin M_Render.
Import ListNotations.
Local Open Scope R_scope.

Definition dist2 (p q : vec3) : R := dot (vsub p q) (vsub p q).
(** p is at distance at most r from the segment between a and b. *)
Definition near (a b : vec3) (r : R) (p : vec3) : Prop :=
  exists u, 0 <= u <= 1 /\ dist2 p (vadd (vscale (1 - u) a) (vscale u b)) <= r ^ 2.

Definition axes : list vec3 := [x_unit; y_unit; z_unit].

(** The points of a geometry, in its own frame.  An XYZ geometry stands for its three axes, as rods. *)
Definition solid (s : shape) (p : vec3) : Prop :=
  match s with
  | Box x y z => Rabs (vx p) <= x / 2 /\ Rabs (vy p) <= y / 2 /\ Rabs (vz p) <= z / 2
  | Sphere r => dist2 p vzero <= r ^ 2
  | Cylinder r l => Rabs (vx p) <= l / 2 /\ vy p ^ 2 + vz p ^ 2 <= r ^ 2
  | Capsule r l => near (V3 (- (l / 2)) 0 0) (V3 (l / 2) 0 0) r p
  | XYZ size => exists e, In e axes /\ near vzero (vscale size e) (size / 7) p
  end.

(** The points of the world which a geometry occupies when its link has the pose x. *)
Definition occupied (x : transform) (g : geometry) (p : vec3) : Prop :=
  exists p0, solid (g_shape g) p0 /\ p = to_world x (to_world (g_transform g) p0).

(** The pose of a link, where -1 is the world. *)
Definition pose_of (xs : list transform) (i : Z) : transform :=
  if (i =? -1)%Z then t_zero else nth (Z.to_nat i) xs t_zero.

(** ** The primitives of MuJoCo (documentation of the XML element geom): half sizes for a box; cylinders and capsules
    along the z axis, with the half length of the cylindrical part. *)
Definition mj_solid (m : mj_prim) (p : vec3) : Prop :=
  match m with
  | MjBox hx hy hz => Rabs (vx p) <= hx /\ Rabs (vy p) <= hy /\ Rabs (vz p) <= hz
  | MjSphere r => dist2 p vzero <= r ^ 2
  | MjCapsule r h => near (V3 0 0 (- h)) (V3 0 0 h) r p
  | MjCylinder r h => Rabs (vz p) <= h /\ vx p ^ 2 + vy p ^ 2 <= r ^ 2
  end.
(** The quaternion of a body or geom turns its frame into that of its parent. *)
Definition mj_place (b : vec3 * quat) (m : mj_geom) (p : vec3) : vec3 :=
  vadd (fst b) (rotate (vadd (mj_pos m) (rotate p (mj_quat m))) (snd b)).
Definition mj_drawn (b : vec3 * quat) (m : mj_geom) (p : vec3) : Prop :=
  exists p0, mj_solid (mj_prim_of m) p0 /\ p = mj_place b m p0.

(** The numbers which are written into the XML text of a geometry. *)
Definition sizes (s : shape) : list R :=
  match s with
  | Box x y z => [x / 2; y / 2; z / 2]
  | Sphere r => [r]
  | Capsule r l | Cylinder r l => [r; l / 2]
  | XYZ _ => []
  end.
Definition numbers (g : geometry) : list R :=
  let p := t_pos (g_transform g) in let q := t_rot (g_transform g) in
  (sizes (g_shape g) ++ [vx p; vy p; vz p] ++ [qw q; - qx q; - qy q; - qz q])%list.
Definition exact (rnd : R -> R) (g : geometry) : Prop := forall v, In v (numbers g) -> rnd v = v.

(** ** The primitives of vispy_visuals.py: everything along the x axis *)
Definition vp_solid (v : vp_prim) (p : vec3) : Prop :=
  match v with
  | VpBox x y z => Rabs (vx p) <= x / 2 /\ Rabs (vy p) <= y / 2 /\ Rabs (vz p) <= z / 2
  | VpSphere r => dist2 p vzero <= r ^ 2
  | VpCylinder r l => Rabs (vx p) <= l / 2 /\ vy p ^ 2 + vz p ^ 2 <= r ^ 2
  | VpCapsule r c => near (V3 (- (c / 2)) 0 0) (V3 (c / 2) 0 0) r p
  | VpAxes => False
  end.
Definition vp_drawn (m : mat3 * vec3) (v : vp_prim) (p : vec3) : Prop :=
  exists p0, vp_solid v p0 /\ p = vp_apply m p0.
