(** * C17-C20: quaternions, transforms, spatial vectors and inertias over the reals. *)
From Coq Require Import Reals Lra Lia ZArith List.
From Verif Require Import Prelude M_Sys S_Sys P_Sys M_Math P_Math M_Geom P_Geom.
Import ListNotations.
Local Open Scope R_scope.

(** ** C17 *)
Theorem C17_quat_mul_monoid p q r :
  qmul p (qmul q r) = qmul (qmul p q) r /\ qmul qone q = q /\ qmul q qone = q /\
  sqrt (qnorm2 (qmul p q)) = sqrt (qnorm2 p) * sqrt (qnorm2 q).
Proof.
  split; [apply qmul_assoc|]. split; [apply qmul_1_l|]. split; [apply qmul_1_r|].
  rewrite qnorm2_mul. apply sqrt_mult_alt. destruct p as [a b c d]. vunfold. nra.
Qed.

Theorem C17_quat_inv q : qunit q -> qunit (qinv q) /\ qmul q (qinv q) = qone /\ qmul (qinv q) q = qone.
Proof. intros H. auto using qunit_inv, qmul_inv_l, qmul_inv_r. Qed.

(** rotate is linear in the vector (for every quaternion). *)
Theorem C17_rotate_linear q a b c :
  rotate (vadd a b) q = vadd (rotate a q) (rotate b q) /\ rotate (vscale c a) q = vscale c (rotate a q).
Proof. split; [apply rotate_add|apply rotate_scale]. Qed.

(** ... a proper rotation for unit quaternions, composing like the product and agreeing with the matrix. *)
Theorem C17_rotate_rotation p q a b : qunit p -> qunit q ->
  vnorm (rotate a q) = vnorm a /\ dot (rotate a q) (rotate b q) = dot a b /\
  cross (rotate a q) (rotate b q) = rotate (cross a b) q /\
  rotate (rotate a q) p = rotate a (qmul p q) /\ rotate (rotate a q) (qinv q) = a /\
  rotate a q = mvmul (quat_to_3x3 q) a.
Proof.
  intros Hp Hq. split; [now apply rotate_norm|]. split; [now apply rotate_dot|]. split; [now apply rotate_cross|].
  split; [symmetry; apply rotate_mul|]. split; [now apply rotate_inv_l|]. symmetry. now apply rotate_3x3.
Qed.

(** The rotation about z by a quarter turn, and a composition. *)
Example C17_example :
  let h := sqrt 2 / 2 in
  let q := Q4 h 0 0 h in let p := Q4 h h 0 0 in
  qunit q /\ qunit p /\ rotate x_unit q = y_unit /\ rotate x_unit (qmul p q) = z_unit.
Proof.
  cbv zeta. assert (E : sqrt 2 * sqrt 2 = 2) by (apply sqrt_sqrt; lra).
  split; [unfold qunit; vunfold; nra|]. split; [unfold qunit; vunfold; nra|]. split.
  - vunfold. f_equal; nra.
  - rewrite rotate_mul. replace (rotate x_unit (Q4 (sqrt 2 / 2) 0 0 (sqrt 2 / 2))) with y_unit.
    + vunfold. f_equal; nra.
    + vunfold. f_equal; nra.
Qed.

(** quat_from_3x3 (quat_to_3x3 q) is q up to sign, whenever the real part does not vanish. *)
Theorem C17_matrix_roundtrip q : qunit q -> qw q <> 0 ->
  quat_from_3x3 (quat_to_3x3 q) = q \/ quat_from_3x3 (quat_to_3x3 q) = qneg q.
Proof.
  intros H W. rewrite quat_to_3x3_unit by auto. unfold quat_from_3x3. destruct q as [w x y z].
  cbn [qw qx qy qz r1 r2 r3 vx vy vz] in *. unfold qunit, qnorm2, qdot in H. cbn [qw qx qy qz] in H.
  match goal with |- context [sqrt ?u / 2] => replace u with (Rsqr (2 * w)) by (unfold Rsqr; lra) end.
  rewrite sqrt_Rsqr_abs. unfold qneg. cbn [qw qx qy qz]. unfold Rabs. destruct (Rcase_abs (2 * w)); [right|left]; f_equal; field; lra.
Qed.

(** ** C18 *)
Theorem C18_transform_group a b c : tunit a -> tunit b ->
  t_mul a (t_mul b c) = t_mul (t_mul a b) c /\ t_mul t_zero a = a /\ t_mul a t_zero = a /\
  t_mul a (t_inv a) = t_zero /\ t_mul (t_inv a) a = t_zero /\
  tunit t_zero /\ tunit (t_mul a b) /\ tunit (t_inv a).
Proof.
  intros Ha Hb. split; [apply t_mul_assoc|]. split; [apply t_mul_0_l|]. split; [apply t_mul_0_r|].
  split; [now apply t_mul_inv_r|]. split; [now apply t_mul_inv_l|]. auto using tunit_zero, tunit_mul, tunit_inv.
Qed.

(** A transform takes the coordinates of a point in the outer frame to its coordinates in the inner frame:
    subtract the origin, then rotate.  The product of transforms is the composition of these maps, so the
    group above is the group of rigid motions. *)
Definition to_frame (t : transform) (x : vec3) : vec3 := rotate (vsub x (t_pos t)) (t_rot t).
Theorem C18_transform_acts a b x : tunit a -> tunit b ->
  to_frame (t_mul a b) x = to_frame a (to_frame b x) /\ to_frame (t_inv a) (to_frame a x) = x /\ to_frame t_zero x = x.
Proof.
  intros Ha Hb. unfold to_frame, tunit in *. cbn [t_mul t_inv t_zero t_pos t_rot]. split; [|split].
  - rewrite rotate_mul. f_equal. rewrite !rotate_sub, rotate_add, rotate_inv_r by auto.
    generalize (rotate x (t_rot b)) (rotate (t_pos b) (t_rot b)) (t_pos a). clear. vring.
  - replace (vsub (rotate (vsub x (t_pos a)) (t_rot a)) (rotate (vneg (t_pos a)) (t_rot a))) with (rotate x (t_rot a)).
    + now rewrite rotate_inv_l.
    + rewrite <- rotate_sub. f_equal. generalize (t_pos a). clear. vring.
  - rewrite rotate_one. vring.
Qed.

Theorem C18_motion_compose a b m : tunit a -> tunit b ->
  t_motion (t_mul a b) m = t_motion a (t_motion b m) /\ t_motion (t_inv a) (t_motion a m) = m /\ t_motion t_zero m = m /\
  t_force (t_mul a b) m = t_force a (t_force b m) /\ t_force (t_inv a) (t_force a m) = m /\ t_force t_zero m = m.
Proof.
  intros Ha Hb. auto 10 using t_motion_mul, t_motion_inv_l, t_motion_zero, t_force_mul, t_force_inv_l, t_force_zero.
Qed.

(** Motions transform as velocity fields: the velocity of the point with outer coordinates [x], measured in the
    outer frame, is vel + ang x x; after the transformation it is that vector in inner coordinates. *)
Definition point_velocity (m : spatial) (x : vec3) : vec3 := vadd (vel m) (cross (ang m) x).
Theorem C18_motion_is_velocity_field t m x : tunit t ->
  point_velocity (t_motion t m) (to_frame t x) = rotate (point_velocity m x) (t_rot t).
Proof.
  intros H. unfold point_velocity, to_frame, t_motion, tunit in *. cbn [ang vel].
  rewrite rotate_cross, <- rotate_add by auto. f_equal. clear. destruct t as [p q]. cbn [t_pos]. vring.
Qed.

Example C18_example :
  let h := sqrt 2 / 2 in let t := Tr (V3 1 2 3) (Q4 h 0 0 h) in
  tunit t /\ to_frame t (V3 1 2 3) = vzero /\ to_frame t (V3 2 2 3) = y_unit /\
  t_mul t t <> t /\ t_motion t (Sp z_unit vzero) = Sp z_unit (V3 (-1) (-2) 0).
Proof.
  cbv zeta. assert (E : sqrt 2 * sqrt 2 = 2) by (apply sqrt_sqrt; lra).
  split; [unfold tunit, qunit; vunfold; nra|]. split; [unfold to_frame; vunfold; f_equal; nra|].
  split; [unfold to_frame; vunfold; f_equal; nra|]. split.
  - intros H. apply (f_equal (fun t => qw (t_rot t))) in H. revert H. vunfold. intros H.
    assert (0 < sqrt 2) by (apply sqrt_lt_R0; lra). nra.
  - vunfold. f_equal; f_equal; nra.
Qed.

(** ** C19 *)
Theorem C19_power_invariant t m f : tunit t -> m_dot (t_motion t m) (t_force t f) = m_dot m f.
Proof. apply power_invariant. Qed.

Theorem C19_inertia_compatible t it m : tunit t ->
  i_mul (t_inertia t it) (t_motion t m) = t_force t (i_mul it m) /\
  m_dot (t_motion t m) (i_mul (t_inertia t it) (t_motion t m)) = m_dot m (i_mul it m).
Proof. intros H. split; [now apply inertia_transform|now apply kinetic_invariant]. Qed.

(** The 6x6 matrices: crm/crf of spatial.py represent the cross products, as_matrix the transforms. *)
Theorem C19_as_matrix a b it m f : tunit a -> tunit b ->
  m6vec (t_as_matrix a) m = t_motion a m /\
  m6vec (m6trans (t_as_matrix (t_inv a))) f = t_force a f /\
  t_as_matrix (t_mul a b) = m6mul (t_as_matrix a) (t_as_matrix b) /\
  m6vec (i_as_matrix it) m = i_mul it m /\
  m6vec (crm m) f = m_cross m f /\ m6vec (crf m) f = m_cross_star m f.
Proof.
  intros Ha Hb. split; [now apply as_matrix_motion|]. split; [now apply as_matrix_force|].
  split; [now apply as_matrix_mul|]. split; [apply as_matrix_inertia|]. split; [apply crm_mul|apply crf_mul].
Qed.

(** The cross products: motions form a Lie algebra on which transforms act, forces its dual. *)
Theorem C19_cross t a b f : tunit t ->
  t_motion t (m_cross a b) = m_cross (t_motion t a) (t_motion t b) /\
  m_cross a b = sneg (m_cross b a) /\ m_dot (m_cross a b) f = - m_dot b (m_cross_star a f).
Proof.
  intros H. split; [now apply t_motion_cross|]. split; [vring|apply m_cross_dual].
Qed.

Example C19_example :
  let t := Tr (V3 0 0 1) qone in
  let it := inertia_create 2 (Tr (V3 1 0 0) qone) mzero in
  tunit t /\ m_dot (Sp z_unit vzero) (i_mul it (Sp z_unit vzero)) = 2 /\ t_inertia t it <> it.
Proof.
  cbv zeta. split; [apply qunit_one|]. split.
  - unfold inertia_create, mcI_aa, rotate_matrix, quat_to_3x3. cbv zeta. vunfold. field.
  - intros H. apply (f_equal i_h) in H. unfold inertia_create, t_inertia in H. vunfold. injection H as H1 H2 H3. lra.
Qed.

(** ** C20 *)
(** The inertia of a body of mass [m] whose inertia about its own centre is [I0], placed at [t]: twice its kinetic
    energy is the rotational energy about the centre plus m times the squared speed of the centre. *)
Theorem C20_body_energy m t I0 s : tunit t ->
  m_dot s (i_mul (inertia_create m t I0) s) =
  dot (rotate (ang s) (t_rot t)) (mvmul I0 (rotate (ang s) (t_rot t)))
  + m * dot (point_velocity s (t_pos t)) (point_velocity s (t_pos t)).
Proof.
  intros H. pose proof (energy2_create m t I0 s H) as E. unfold energy2 in E. rewrite E. cbv zeta. f_equal. f_equal.
  unfold point_velocity. clear. destruct t as [p q]. cbn [t_pos]. vring.
Qed.

Theorem C20_link_inertia gs :
  i_mass (inertia_from_geometries gs) = fold_right Rplus 0 (map g_mass gs) /\
  (forall s, m_dot s (i_mul (inertia_from_geometries gs) s) =
     fold_right Rplus 0 (map (fun g => m_dot s (i_mul (inertia_create (g_mass g) (g_transform g) (get_it_3x3 (g_mass g) (g_shape g))) s)) gs)) /\
  i_h (inertia_from_geometries gs) = fold_right vadd vzero (map (fun g => vscale (g_mass g) (t_pos (g_transform g))) gs) /\
  (Forall (fun g => tunit (g_transform g)) gs ->
     m6trans (i_as_matrix (inertia_from_geometries gs)) = i_as_matrix (inertia_from_geometries gs)) /\
  (Forall (fun g => tunit (g_transform g) /\ 0 <= g_mass g /\ shape_ok (g_shape g)) gs ->
     forall s, 0 <= m_dot s (m6vec (i_as_matrix (inertia_from_geometries gs)) s)).
Proof.
  split; [apply inertia_mass|]. split; [apply inertia_energy|]. split; [apply inertia_h|]. split.
  - intros H. now apply isym_matrix, isym_from.
  - intros H s. rewrite as_matrix_inertia. now apply ipsd_from.
Qed.

(** System.parse stores exactly this inertia: link [i] gets that of the geometries attached to it. *)
Theorem C20_parse_inertia {J O} (W : widths) (s s' : System R (plink J) geometry O) :
  parse W phys_ops s = Ok s' ->
  length (links s') = length (links s) /\
  forall i l', nth_error (links s') i = Some l' ->
    exists l, nth_error (links s) i = Some l /\
      pl_inertia l' = inertia_from_geometries (map snd (filter (fun g => Z.eqb (fst g) (Z.of_nat i)) (geoms s))) /\
      pl_t1 l' = pl_t1 l /\ pl_pmin l' = pl_pmin l /\ pl_pmax l' = pl_pmax l /\ pl_params l' = pl_params l.
Proof.
  intros H. unfold parse in H. do 7 (apply bind_Ok in H; destruct H as (? & _ & H)). cbv zeta in H.
  do 3 (apply bind_Ok in H; destruct H as (? & _ & H)). injection H as <-.
  unfold set_links_geoms. cbn [links]. split; [unfold enum; rewrite map_length, length_enum_from; auto|].
  intros i l' E. rewrite nth_error_map in E. unfold enum in E; rewrite nth_error_enum_from in E.
  destruct (nth_error (links s) i) as [l|]; cbn in E; [|discriminate]. injection E as <-. exists l.
  cbn [with_inertia phys_ops set_inertia pl_inertia pl_t1 pl_pmin pl_pmax pl_params fst snd]. auto 10.
Qed.

(** Two spheres of mass 1 at distance 1 on either side: mass 2, inertia 2/5+1 each about z. *)
Example C20_example :
  let g p := mkGeom 1 (Tr p qone) (Sphere 1) in
  let gs := [g (V3 1 0 0); g (V3 (-1) 0 0)] in
  Forall (fun g => tunit (g_transform g) /\ 0 <= g_mass g /\ shape_ok (g_shape g)) gs /\
  i_mass (inertia_from_geometries gs) = 2 /\ i_h (inertia_from_geometries gs) = vzero /\
  m_dot (Sp z_unit vzero) (i_mul (inertia_from_geometries gs) (Sp z_unit vzero)) = 2 * (2 / 5 + 1).
Proof.
  cbv zeta. split; [|split; [|split]].
  - repeat constructor; cbn; try lra; apply qunit_one.
  - rewrite inertia_mass. cbn. ring.
  - rewrite inertia_h. cbn. vunfold. f_equal; ring.
  - rewrite (proj1 (proj2 (C20_link_inertia _))). cbn [map fold_right g_mass g_transform g_shape].
    rewrite !C20_body_energy by apply qunit_one. cbn [get_it_3x3]. unfold point_velocity. vunfold. field.
Qed.

Print Assumptions C17_quat_mul_monoid.
Print Assumptions C17_rotate_rotation.
Print Assumptions C18_transform_group.
Print Assumptions C19_as_matrix.
Print Assumptions C20_link_inertia.
Print Assumptions C20_parse_inertia.
