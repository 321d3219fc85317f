(** * Specification vocabulary for the inertia of solids: volume integrals.

    Integrals are Newton integrals, F b - F a for a primitive F; volume integrals are iterated.  Bodies of revolution are described in
    cylindrical coordinates (x, s, theta) around the x axis, where the volume element is s dtheta ds dx. *)
From Coq Require Import Reals List.
From Verif Require Import Prelude M_Math M_Geom P_Math S_Kin.
Local Open Scope R_scope.

Definition integral (f : R -> R) (a b I : R) : Prop :=
  exists F, (forall x, a <= x <= b -> derivable_pt_lim F x (f x)) /\ I = F b - F a.

(** The integral of g over the box with the edges X, Y, Z around the origin *)
Definition over_box (X Y Z : R) (g : vec3 -> R) (I : R) : Prop :=
  exists A B, (forall x y, integral (fun z => g (V3 x y z)) (- (Z / 2)) (Z / 2) (A x y)) /\
              (forall x, integral (A x) (- (Y / 2)) (Y / 2) (B x)) /\
              integral B (- (X / 2)) (X / 2) I.
(** The integral of g over the points with a <= x <= b whose distance s from the x axis is at most rho x *)
Definition around_axis (x s theta : R) : vec3 := V3 x (s * cos theta) (s * sin theta).
Definition revolved (a b : R) (rho : R -> R) (g : vec3 -> R) (I : R) : Prop :=
  exists A B, (forall x s, integral (fun theta => g (around_axis x s theta) * s) 0 (2 * PI) (A x s)) /\
              (forall x, a <= x <= b -> integral (A x) 0 (rho x) (B x)) /\
              integral B a b I.

(** The integral of g over the solid of a geometry.  The axes of an XYZ geometry have no volume. *)
Definition over (s : shape) (g : vec3 -> R) (I : R) : Prop :=
  match s with
  | XYZ _ => I = 0
  | Box X Y Z => over_box X Y Z g I
  | Sphere r => revolved (- r) r (fun x => sqrt (r ^ 2 - x ^ 2)) g I
  | Cylinder r l => revolved (- (l / 2)) (l / 2) (fun _ => r) g I
  | Capsule r l => exists I1 I2 I3,
      revolved (- (l / 2) - r) (- (l / 2)) (fun x => sqrt (r ^ 2 - (x + l / 2) ^ 2)) g I1 /\
      revolved (- (l / 2)) (l / 2) (fun _ => r) g I2 /\
      revolved (l / 2) (l / 2 + r) (fun x => sqrt (r ^ 2 - (x - l / 2) ^ 2)) g I3 /\ I = I1 + I2 + I3
  end.

(** A solid with a volume *)
Definition full (s : shape) : Prop :=
  match s with
  | XYZ _ => False
  | Box X Y Z => 0 < X /\ 0 < Y /\ 0 < Z
  | Sphere r => 0 < r
  | Cylinder r l => 0 < r /\ 0 < l
  | Capsule r l => 0 < r /\ 0 <= l
  end.

(** The velocity of the point p of a body that moves with the twist sp (angular velocity, velocity of the point at the origin) *)
Definition velocity_at (sp : spatial) (p : vec3) : vec3 := vadd (vel sp) (cross (ang sp) p).
(** I is twice the kinetic energy of the geometry g, as a solid of constant density, in a link that moves with sp. *)
Definition twice_energy (g : geometry) (sp : spatial) (I : R) : Prop :=
  exists V, over (g_shape g) (fun _ => 1) V /\
    over (g_shape g) (fun u => g_mass g / V * dot (velocity_at sp (to_world (g_transform g) u)) (velocity_at sp (to_world (g_transform g) u))) I.
(** I is the first moment of the mass of g in the direction n. *)
Definition first_moment (g : geometry) (n : vec3) (I : R) : Prop :=
  exists V, over (g_shape g) (fun _ => 1) V /\ over (g_shape g) (fun u => g_mass g / V * dot n (to_world (g_transform g) u)) I.
(** Geometries of links: solids with a volume, and axes without mass *)
Definition proper (g : geometry) : Prop :=
  tunit (g_transform g) /\ (full (g_shape g) \/ (exists size, g_shape g = XYZ size) /\ g_mass g = 0).
