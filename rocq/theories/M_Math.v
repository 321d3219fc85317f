(** * Model of ring.maths, ring.algebra and ring.spatial over the real numbers.

    Floating point arithmetic is replaced by exact real arithmetic; jnp.vectorize batching is dropped
    (every function is modelled on one element of the batch). *)
From Coq Require Import Reals Lra List.
Import ListNotations.
Local Open Scope R_scope.

(** ** Vectors of length 3 *)
Record vec3 := V3 { vx : R; vy : R; vz : R }.

Definition vzero : vec3 := V3 0 0 0.
Definition vadd (a b : vec3) : vec3 := V3 (vx a + vx b) (vy a + vy b) (vz a + vz b).
Definition vneg (a : vec3) : vec3 := V3 (- vx a) (- vy a) (- vz a).
Definition vsub (a b : vec3) : vec3 := V3 (vx a - vx b) (vy a - vy b) (vz a - vz b).
Definition vscale (c : R) (a : vec3) : vec3 := V3 (c * vx a) (c * vy a) (c * vz a).
(** [a @ b] *)
Definition dot (a b : vec3) : R := vx a * vx b + vy a * vy b + vz a * vz b.
(** jnp.cross *)
Definition cross (a b : vec3) : vec3 :=
  V3 (vy a * vz b - vz a * vy b) (vz a * vx b - vx a * vz b) (vx a * vy b - vy a * vx b).
(** jnp.linalg.norm *)
Definition vnorm (a : vec3) : R := sqrt (dot a a).

(** maths.py 14-16 *)
Definition x_unit : vec3 := V3 1 0 0.
Definition y_unit : vec3 := V3 0 1 0.
Definition z_unit : vec3 := V3 0 0 1.

(** jnp.isclose(x, 0.0): |x| <= atol + rtol * 0, atol = 1e-8 *)
Definition atol : R := / 10 ^ 8.
Definition close0 (x : R) : Prop := Rabs x <= atol.
Definition close0_dec (x : R) : {close0 x} + {~ close0 x} := Rle_dec (Rabs x) atol.
(** jnp.all(jnp.isclose(x, 0.0)) *)
Definition vclose0 (a : vec3) : Prop := close0 (vx a) /\ close0 (vy a) /\ close0 (vz a).
Definition vclose0_dec (a : vec3) : {vclose0 a} + {~ vclose0 a}.
Proof.
  unfold vclose0. destruct (close0_dec (vx a)), (close0_dec (vy a)), (close0_dec (vz a)); tauto.
Defined.

(** maths.py 25-36 *)
Definition safe_norm (a : vec3) : R := if vclose0_dec a then 0 else vnorm a.
(** maths.py 39-50 *)
Definition safe_normalize (a : vec3) : vec3 :=
  if vclose0_dec a then vzero else vscale (/ vnorm a) a.

(** ** Quaternions *)
Record quat := Q4 { qw : R; qx : R; qy : R; qz : R }.
Definition qone : quat := Q4 1 0 0 0.
Definition qvec (q : quat) : vec3 := V3 (qx q) (qy q) (qz q).
Definition qneg (q : quat) : quat := Q4 (- qw q) (- qx q) (- qy q) (- qz q).
Definition qdot (p q : quat) : R := qw p * qw q + qx p * qx q + qy p * qy q + qz p * qz q.
Definition qscale (c : R) (q : quat) : quat := Q4 (c * qw q) (c * qx q) (c * qy q) (c * qz q).
(** jnp.linalg.norm squared *)
Definition qnorm2 (q : quat) : R := qdot q q.
Definition qunit (q : quat) : Prop := qnorm2 q = 1.

(** maths.py 101-112 *)
Definition qmul (u v : quat) : quat :=
  Q4 (qw u * qw v - qx u * qx v - qy u * qy v - qz u * qz v)
     (qw u * qx v + qx u * qw v + qy u * qz v - qz u * qy v)
     (qw u * qy v - qx u * qz v + qy u * qw v + qz u * qx v)
     (qw u * qz v + qx u * qy v - qy u * qx v + qz u * qw v).
(** maths.py 115-117 *)
Definition qinv (q : quat) : quat := Q4 (qw q) (- qx q) (- qy q) (- qz q).
(** maths.py 133-135 *)
Definition rotate_quat (q quat : quat) : M_Math.quat := qmul quat (qmul q (qinv quat)).
(** maths.py 120-124 *)
Definition rotate (v : vec3) (q : quat) : vec3 := qvec (rotate_quat (Q4 0 (vx v) (vy v) (vz v)) q).

(** ** 3x3 matrices, by rows *)
Record mat3 := M3 { r1 : vec3; r2 : vec3; r3 : vec3 }.
Definition mvmul (m : mat3) (v : vec3) : vec3 := V3 (dot (r1 m) v) (dot (r2 m) v) (dot (r3 m) v).
Definition mcol1 (m : mat3) := V3 (vx (r1 m)) (vx (r2 m)) (vx (r3 m)).
Definition mcol2 (m : mat3) := V3 (vy (r1 m)) (vy (r2 m)) (vy (r3 m)).
Definition mcol3 (m : mat3) := V3 (vz (r1 m)) (vz (r2 m)) (vz (r3 m)).
Definition mtrans (m : mat3) : mat3 := M3 (mcol1 m) (mcol2 m) (mcol3 m).
Definition vmrow (v : vec3) (m : mat3) : vec3 := V3 (dot v (mcol1 m)) (dot v (mcol2 m)) (dot v (mcol3 m)).
Definition mmul (a b : mat3) : mat3 := M3 (vmrow (r1 a) b) (vmrow (r2 a) b) (vmrow (r3 a) b).
Definition madd (a b : mat3) : mat3 := M3 (vadd (r1 a) (r1 b)) (vadd (r2 a) (r2 b)) (vadd (r3 a) (r3 b)).
Definition mscale (c : R) (a : mat3) : mat3 := M3 (vscale c (r1 a)) (vscale c (r2 a)) (vscale c (r3 a)).
Definition mzero : mat3 := M3 vzero vzero vzero.
Definition meye : mat3 := M3 x_unit y_unit z_unit.
Definition mdiag (a b c : R) : mat3 := M3 (V3 a 0 0) (V3 0 b 0) (V3 0 0 c).

(** maths.py 176-193 *)
Definition quat_to_3x3 (q : quat) : mat3 :=
  let d := qdot q q in
  let s := 2 / d in
  let xs := qx q * s in let ys := qy q * s in let zs := qz q * s in
  let wx := qw q * xs in let wy := qw q * ys in let wz := qw q * zs in
  let xx := qx q * xs in let xy := qx q * ys in let xz := qx q * zs in
  let yy := qy q * ys in let yz := qy q * zs in let zz := qz q * zs in
  M3 (V3 (1 - (yy + zz)) (xy - wz) (xz + wy))
     (V3 (xy + wz) (1 - (xx + zz)) (yz - wx))
     (V3 (xz - wy) (yz + wx) (1 - (xx + yy))).
(** maths.py 127-130 *)
Definition rotate_matrix (m : mat3) (q : quat) : mat3 :=
  let E := quat_to_3x3 q in mmul (mmul E m) (mtrans E).
(** maths.py 166-173 *)
Definition quat_from_3x3 (m : mat3) : quat :=
  let w := sqrt (1 + vx (r1 m) + vy (r2 m) + vz (r3 m)) / 2 in
  Q4 w ((vy (r3 m) - vz (r2 m)) / (w * 4)) ((vz (r1 m) - vx (r3 m)) / (w * 4)) ((vx (r2 m) - vy (r1 m)) / (w * 4)).

(** maths.py 83-85 *)
Definition ensure_positive_w (q : quat) : quat := if Rlt_dec (qw q) 0 then qneg q else q.

(** maths.py 138-163.  The sign convention: the angle is negated. *)
Definition quat_rot_axis (axis : vec3) (angle : R) : quat :=
  let a := safe_normalize axis in
  let h := - angle / 2 in
  Q4 (cos h) (sin h * vx a) (sin h * vy a) (sin h * vz a).

(** jnp.arctan2 *)
Definition arctan2 (y x : R) : R :=
  if Rlt_dec 0 x then atan (y / x)
  else if Rlt_dec x 0 then (if Rle_dec 0 y then atan (y / x) + PI else atan (y / x) - PI)
  else if Rlt_dec 0 y then PI / 2 else if Rlt_dec y 0 then - (PI / 2) else 0.

(** Python's float [%] with positive modulus: a - b * floor(a / b) *)
Definition fmod (a b : R) : R := a - b * IZR (Int_part (a / b)).
(** maths.py 9-11 *)
Definition wrap_to_pi (phi : R) : R := fmod (phi + PI) (2 * PI) - PI.

(** maths.py 239-242 *)
Definition quat_angle (q : quat) : R := wrap_to_pi (2 * arctan2 (safe_norm (qvec q)) (qw q)).
(** maths.py 88-90 *)
Definition angle_error (q qhat : quat) : R := Rabs (quat_angle (qmul (qinv q) qhat)).
(** maths.py 259-266 *)
Definition quat_to_rot_axis (q : quat) : vec3 * R := (safe_normalize (qvec q), - quat_angle q).

(** maths.py 269-280 *)
Definition euler_to_quat (a1 a2 a3 : R) : quat :=
  let c1 := cos (a1 / 2) in let c2 := cos (a2 / 2) in let c3 := cos (a3 / 2) in
  let s1 := sin (a1 / 2) in let s2 := sin (a2 / 2) in let s3 := sin (a3 / 2) in
  qinv (Q4 (c1 * c2 * c3 - s1 * s2 * s3) (s1 * c2 * c3 + c1 * s2 * s3)
           (c1 * s2 * c3 - s1 * c2 * s3) (c1 * c2 * s3 + s1 * s2 * c3)).
(** jnp.clip *)
Definition clip (x lo hi : R) : R := Rmin (Rmax x lo) hi.
(** maths.py 283-302; the primal value of safe_arcsin is arcsin (68-71). *)
Definition quat_to_euler (q0 : quat) : R * R * R :=
  let q := qinv q0 in
  let z := arctan2 (-2 * qx q * qy q + 2 * qw q * qz q) (qx q * qx q + qw q * qw q - qz q * qz q - qy q * qy q) in
  let y := asin (clip (2 * qx q * qz q + 2 * qw q * qy q) (-1) 1) in
  let x := arctan2 (-2 * qy q * qz q + 2 * qw q * qx q) (qz q * qz q - qy q * qy q - qx q * qx q + qw q * qw q) in
  (x, y, z).
(** maths.py 212-236 *)
Inductive xyz := AX | AY | AZ.
Definition unit_vector (a : xyz) : vec3 := match a with AX => x_unit | AY => y_unit | AZ => z_unit end.
Definition quat_euler (c1 c2 c3 : xyz) (a1 a2 a3 : R) (intrinsic : bool) : quat :=
  let q1 := quat_rot_axis (unit_vector c1) a1 in
  let q2 := quat_rot_axis (unit_vector c2) a2 in
  let q3 := quat_rot_axis (unit_vector c3) a3 in
  if intrinsic then qmul q3 (qmul q2 q1) else qmul q1 (qmul q2 q3).

(** maths.py 305-321 *)
Definition quat_project (q : quat) (k : vec3) : quat * quat :=
  let phi := 2 * arctan2 (dot (qvec q) k) (qw q) in
  let q_pri := quat_rot_axis k (- phi) in
  (q_pri, qmul q (qinv q_pri)).
(** maths.py 383-397 *)
Definition quat_inclinationAngle (q : quat) : R := quat_angle (snd (quat_project q z_unit)).
Definition quat_headingAngle (q : quat) : R := quat_angle (fst (quat_project q z_unit)).
Definition quat_transfer_heading (q_from q_to : quat) : quat :=
  let heading := fst (quat_project q_from z_unit) in
  let q_to' := snd (quat_project q_to z_unit) in
  qmul q_to' heading.

(** maths.py 351-374: the body of the low-pass recursion. *)
Definition lowpass_step (alpha : R) (y x : quat) : quat :=
  let q_err := qmul x (qinv y) in
  let '(axis, angle) := quat_to_rot_axis q_err in
  let '(axis, angle) := if Rlt_dec angle 0 then (vneg axis, - angle) else (axis, angle) in
  qmul (quat_rot_axis axis (angle * alpha)) y.
Fixpoint lowpass_loop (alpha : R) (y : quat) (xs : list quat) : list quat :=
  match xs with
  | [] => []
  | x :: r => let y' := lowpass_step alpha y x in y' :: lowpass_loop alpha y' r
  end.
Definition qnormalize (q : quat) : quat := qscale (/ sqrt (qnorm2 q)) q.
(** maths.py 346-380; [qs[0]] of an empty array is not modelled ([] in, [] out). *)
Definition lowpass_pass (cutoff samp : R) (qs : list quat) : list quat :=
  let w := 2 * PI * cutoff / samp in
  let alpha := w / (1 + w) in
  match qs with
  | [] => []
  | q0 :: r => map qnormalize (q0 :: lowpass_loop alpha q0 r)
  end.
Definition quat_lowpassfilter (cutoff samp : R) (filtfilt : bool) (qs : list quat) : list quat :=
  if filtfilt then rev (lowpass_pass cutoff samp (rev (lowpass_pass cutoff samp qs)))
  else lowpass_pass cutoff samp qs.

(** ** Transforms, motions, forces, inertias: base.py 113-231 and algebra.py *)
Record transform := Tr { t_pos : vec3; t_rot : quat }.
Record spatial := Sp { ang : vec3; vel : vec3 }.   (* base.Motion and base.Force *)
Record inertia := In3 { i_3x3 : mat3; i_h : vec3; i_mass : R }.

(** base.py 140-145 *)
Definition t_zero : transform := Tr vzero qone.
(** algebra.py 29-38 *)
Definition t_mul (t2 t1 : transform) : transform :=
  Tr (vadd (t_pos t1) (rotate (t_pos t2) (qinv (t_rot t1)))) (qmul (t_rot t2) (t_rot t1)).
(** algebra.py 41-45 *)
Definition t_inv (t : transform) : transform := Tr (rotate (vneg (t_pos t)) (t_rot t)) (qinv (t_rot t)).
(** algebra.py 48-61 *)
Definition t_move_into_frame (t new_frame : transform) : transform :=
  Tr (rotate (t_pos t) (t_rot new_frame)) (rotate_quat (t_rot t) (t_rot new_frame)).
(** algebra.py 64-73 *)
Definition t_motion (t : transform) (m : spatial) : spatial :=
  Sp (rotate (ang m) (t_rot t)) (rotate (vadd (vneg (cross (t_pos t) (ang m))) (vel m)) (t_rot t)).
(** algebra.py 76-85 *)
Definition t_force (t : transform) (f : spatial) : spatial :=
  Sp (rotate (vsub (ang f) (cross (t_pos t) (vel f))) (t_rot t)) (rotate (vel f) (t_rot t)).
(** algebra.py 7-26 *)
Definition i_mul (it : inertia) (m : spatial) : spatial :=
  Sp (vadd (mvmul (i_3x3 it) (ang m)) (cross (i_h it) (vel m)))
     (vsub (vscale (i_mass it) (vel m)) (cross (i_h it) (ang m))).
Definition m_dot (m f : spatial) : R := dot (ang m) (ang f) + dot (vel m) (vel f).
Definition m_cross (m1 m2 : spatial) : spatial :=
  Sp (cross (ang m1) (ang m2)) (vadd (cross (ang m1) (vel m2)) (cross (vel m1) (ang m2))).
Definition m_cross_star (m f : spatial) : spatial :=
  Sp (vadd (cross (ang m) (ang f)) (cross (vel m) (vel f))) (cross (ang m) (vel f)).
(** spatial.py 55-57: the matrix of the cross product *)
Definition cross_matrix (r : vec3) : mat3 :=
  M3 (V3 0 (- vz r) (vy r)) (V3 (vz r) 0 (- vx r)) (V3 (- vy r) (vx r) 0).
(** algebra.py 88-100 *)
Definition t_inertia (t : transform) (it : inertia) : inertia :=
  let rc := cross_matrix (t_pos t) in
  let hmr := vsub (i_h it) (vscale (i_mass it) (t_pos t)) in
  In3 (rotate_matrix (madd (madd (i_3x3 it) (mmul rc (cross_matrix (i_h it)))) (mmul (cross_matrix hmr) rc)) (t_rot t))
      (rotate hmr (t_rot t)) (i_mass it).
(** Elementwise + and - of the pytrees (base.py 30-60), zeros *)
Definition sadd (a b : spatial) : spatial := Sp (vadd (ang a) (ang b)) (vadd (vel a) (vel b)).
Definition sneg (a : spatial) : spatial := Sp (vneg (ang a)) (vneg (vel a)).
Definition sscale (c : R) (a : spatial) : spatial := Sp (vscale c (ang a)) (vscale c (vel a)).
Definition szero : spatial := Sp vzero vzero.
Definition iadd (a b : inertia) : inertia :=
  In3 (madd (i_3x3 a) (i_3x3 b)) (vadd (i_h a) (i_h b)) (i_mass a + i_mass b).
Definition izero : inertia := In3 mzero vzero 0.

(** ** 6x6 matrices as four 3x3 blocks: spatial.py 60-112 *)
Record mat6 := M6 { m_aa : mat3; m_ab : mat3; m_ba : mat3; m_bb : mat3 }.
Definition mneg (a : mat3) : mat3 := mscale (-1) a.
(** block product of 6x6 matrices and matrix times 6-vector ([Motion.as_matrix] = (ang, vel)) *)
Definition m6mul (a b : mat6) : mat6 :=
  M6 (madd (mmul (m_aa a) (m_aa b)) (mmul (m_ab a) (m_ba b))) (madd (mmul (m_aa a) (m_ab b)) (mmul (m_ab a) (m_bb b)))
     (madd (mmul (m_ba a) (m_aa b)) (mmul (m_bb a) (m_ba b))) (madd (mmul (m_ba a) (m_ab b)) (mmul (m_bb a) (m_bb b))).
Definition m6vec (a : mat6) (s : spatial) : spatial :=
  Sp (vadd (mvmul (m_aa a) (ang s)) (mvmul (m_ab a) (vel s))) (vadd (mvmul (m_ba a) (ang s)) (mvmul (m_bb a) (vel s))).
Definition m6trans (a : mat6) : mat6 := M6 (mtrans (m_aa a)) (mtrans (m_ba a)) (mtrans (m_ab a)) (mtrans (m_bb a)).
(** spatial.py 73-80 *)
Definition crm (v : spatial) : mat6 := M6 (cross_matrix (ang v)) mzero (cross_matrix (vel v)) (cross_matrix (ang v)).
Definition m6neg (a : mat6) : mat6 := M6 (mneg (m_aa a)) (mneg (m_ab a)) (mneg (m_ba a)) (mneg (m_bb a)).
Definition crf (v : spatial) : mat6 := m6neg (m6trans (crm v)).
(** spatial.py 98-100 *)
Definition xlt (r : vec3) : mat6 := M6 meye mzero (mneg (cross_matrix r)) meye.
(** base.py 147-149 *)
Definition t_as_matrix (t : transform) : mat6 :=
  let E := quat_to_3x3 (t_rot t) in m6mul (M6 E mzero mzero E) (xlt (t_pos t)).
(** base.py 229-231 *)
Definition i_as_matrix (it : inertia) : mat6 :=
  M6 (i_3x3 it) (cross_matrix (i_h it)) (mneg (cross_matrix (i_h it))) (mscale (i_mass it) meye).
(** spatial.py 107-112, block [:3,:3] *)
Definition mcI_aa (m : R) (c : vec3) (Ic : mat3) : mat3 :=
  madd Ic (mneg (mmul (mscale m (cross_matrix c)) (cross_matrix c))).
(** base.py 210-220 *)
Definition inertia_create (mass : R) (t : transform) (it_3x3 : mat3) : inertia :=
  let it1 := rotate_matrix it_3x3 (qinv (t_rot t)) in
  In3 (mcI_aa mass (t_pos t) it1) (vscale mass (t_pos t)) mass.

(** ** Grad-safe inverse functions.  [None] is NaN. *)
Definition arccos (x : R) : option R := if Rle_dec (-1) x then if Rle_dec x 1 then Some (acos x) else None else None.
Definition arcsin (x : R) : option R := if Rle_dec (-1) x then if Rle_dec x 1 then Some (asin x) else None else None.
(** maths.py 53-56, 68-71 *)
Definition safe_arccos := arccos.
Definition safe_arcsin := arcsin.
(** maths.py 59-65, 74-80: (primal_out, tangent_out) as functions of primal and tangent; the primal of
    safe_arcsin's rule is computed by safe_arccos (line 78). *)
Definition clip_grad (x : R) : R := clip x (-1 + / 10 ^ 7) (1 - / 10 ^ 7).
Definition safe_arccos_jvp (x dx : R) : option R * R := (safe_arccos x, - dx / sqrt (1 - clip_grad x ^ 2)).
Definition safe_arcsin_jvp (x dx : R) : option R * R := (safe_arccos x, dx / sqrt (1 - clip_grad x ^ 2)).

(** maths.py 246-256: [convention] is the first sample's axis. *)
Definition quat_angle_constantAxisOverTime (qs : list quat) : list R :=
  match qs with
  | [] => []
  | q0 :: _ =>
      let conv := safe_normalize (qvec q0) in
      map (fun q => let axis := safe_normalize (qvec q) in
             if Rlt_dec (vnorm (vadd conv axis)) (vnorm (vsub conv axis)) then - quat_angle q else quat_angle q) qs
  end.
