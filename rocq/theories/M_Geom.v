(** * Model of geometries and link inertias (src/ring/base.py 234-334, 953-970). *)
From Coq Require Import Reals ZArith List.
From Verif Require Import Prelude M_Sys M_Math.
Import ListNotations.
Local Open Scope R_scope.

(** base.py 244-334 *)
Inductive shape :=
| XYZ (size : R)
| Sphere (radius : R)
| Box (dim_x dim_y dim_z : R)
| Cylinder (radius length : R)
| Capsule (radius length : R).

(** base.py 234-241: the fields of a geometry which matter for inertia. *)
Record geometry := mkGeom { g_mass : R; g_transform : transform; g_shape : shape }.

(** get_it_3x3: base.py 254-255, 262-264, 273-289, 299-307, 317-334.  For a capsule of zero volume Python
    divides by zero (NaN); theorems about capsules assume a positive radius. *)
Definition get_it_3x3 (mass : R) (s : shape) : mat3 :=
  match s with
  | XYZ _ => mzero
  | Sphere r => mscale (2 / 5 * mass * r ^ 2) meye
  | Box x y z => mscale (1 / 12 * mass) (mdiag (y ^ 2 + z ^ 2) (x ^ 2 + z ^ 2) (x ^ 2 + y ^ 2))
  | Cylinder r l =>
      let radius_dir := 3 * r ^ 2 + l ^ 2 in
      mscale (1 / 12 * mass) (mdiag (6 * r ^ 2) radius_dir radius_dir)
  | Capsule r d =>
      let v_cyl := PI * r ^ 2 * d in
      let v_cap := 4 / 3 * PI * r ^ 3 in
      let v_tot := v_cyl + v_cap in
      let m_cyl := mass * v_cyl / v_tot in
      let m_cap := mass * v_cap / v_tot in
      let I_a := m_cyl * (0.25 * r ^ 2 + 1 / 12 * d ^ 2) + m_cap * (0.4 * r ^ 2 + 0.375 * r * d + 0.25 * d ^ 2) in
      let I_b := (0.5 * m_cyl + 0.4 * m_cap) * r ^ 2 in
      mdiag I_b I_a I_a
  end.

(** base.py 953-957 *)
Definition inertia_from_geometries (gs : list geometry) : inertia :=
  fold_left (fun it g => iadd it (inertia_create (g_mass g) (g_transform g) (get_it_3x3 (g_mass g) (g_shape g)))) gs izero.

(** ** Links with their numeric content: base.py 340-360 *)
Record plink (J : Type) := mkPL {
  pl_t1 : transform;         (* transform1: parent to joint *)
  pl_pmin : vec3; pl_pmax : vec3;
  pl_params : J;             (* joint_params *)
  pl_inertia : inertia;
  pl_t2 : transform;         (* transform2: joint *)
  pl_t : transform }.        (* transform: parent to link *)
Arguments mkPL {J}.
Arguments pl_t1 {J}.
Arguments pl_pmin {J}.
Arguments pl_pmax {J}.
Arguments pl_params {J}.
Arguments pl_inertia {J}.
Arguments pl_t2 {J}.
Arguments pl_t {J}.
Definition set_inertia {J} (l : plink J) (it : inertia) : plink J :=
  mkPL (pl_t1 l) (pl_pmin l) (pl_pmax l) (pl_params l) it (pl_t2 l) (pl_t l).

Definition Rleb (a b : R) : bool := if Rle_dec a b then true else false.
(** The numeric checks of System.parse over the reals: jnp.allclose(norm(z), 1.0) (base.py 934-936; rtol 1e-5,
    atol 1e-8), all(pos_max >= pos_min) (899), inertia of the link's geometries (909-910, 959-970). *)
Definition phys_ops {J} : parse_ops R (plink J) geometry :=
  mkOps 0 1
    (fun z => Rleb (Rabs (sqrt (fold_right Rplus 0 (map (fun x => x * x) z)) - 1)) (/ 10 ^ 8 + / 10 ^ 5))
    (fun l => Rleb (vx (pl_pmin l)) (vx (pl_pmax l)) && Rleb (vy (pl_pmin l)) (vy (pl_pmax l))
              && Rleb (vz (pl_pmin l)) (vz (pl_pmax l)))%bool
    (fun gs l => set_inertia l (inertia_from_geometries gs)).
