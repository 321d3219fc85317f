(** * Identities of the quaternion and transform algebra. *)
From Coq Require Import Reals Lra Lia ZArith List Nsatz.
From Verif Require Import M_Math.
Local Open Scope R_scope.

Ltac vunfold :=
  cbv [vadd vneg vsub vscale dot cross vzero x_unit y_unit z_unit qmul qinv qneg qscale qdot qnorm2 qone qvec rotate rotate_quat
       mvmul mcol1 mcol2 mcol3 mtrans vmrow mmul madd mscale mzero meye mneg mdiag cross_matrix
       t_zero t_mul t_inv t_motion t_force i_mul m_dot m_cross m_cross_star sadd sneg sscale szero iadd izero
       m6mul m6vec m6trans crm crf m6neg xlt i_as_matrix
       vx vy vz qw qx qy qz r1 r2 r3 t_pos t_rot ang vel i_3x3 i_h i_mass m_aa m_ab m_ba m_bb] in *.
Ltac vsplit := repeat match goal with
  | |- V3 _ _ _ = V3 _ _ _ => f_equal | |- Q4 _ _ _ _ = Q4 _ _ _ _ => f_equal | |- M3 _ _ _ = M3 _ _ _ => f_equal
  | |- Tr _ _ = Tr _ _ => f_equal | |- Sp _ _ = Sp _ _ => f_equal | |- In3 _ _ _ = In3 _ _ _ => f_equal
  | |- M6 _ _ _ _ = M6 _ _ _ _ => f_equal end.
(** Equalities of records of reals by ring. *)
Ltac vring := intros; repeat match goal with
  | v : vec3 |- _ => destruct v | q : quat |- _ => destruct q | m : mat3 |- _ => destruct m
  | t : transform |- _ => destruct t | s : spatial |- _ => destruct s | i : inertia |- _ => destruct i
  | m : mat6 |- _ => destruct m end; vunfold; vsplit; try ring.

Lemma vadd_assoc a b c : vadd a (vadd b c) = vadd (vadd a b) c. Proof. vring. Qed.
Lemma vadd_comm a b : vadd a b = vadd b a. Proof. vring. Qed.
Lemma vadd_0_l a : vadd vzero a = a. Proof. vring. Qed.
Lemma vadd_0_r a : vadd a vzero = a. Proof. vring. Qed.
Lemma vscale_1 a : vscale 1 a = a. Proof. vring. Qed.
Lemma vscale_0 a : vscale 0 a = vzero. Proof. vring. Qed.
Lemma vscale_vscale c d a : vscale c (vscale d a) = vscale (c * d) a. Proof. vring. Qed.
Lemma vsub_vadd a b : vsub a b = vadd a (vneg b). Proof. vring. Qed.
Lemma dot_comm a b : dot a b = dot b a. Proof. vring. Qed.
Lemma dot_nonneg a : 0 <= dot a a.
Proof. destruct a as [x y z]. vunfold. nra. Qed.
Lemma dot_0 a : dot a a = 0 -> a = vzero.
Proof. destruct a as [x y z]. vunfold. intros H. f_equal; nra. Qed.

Lemma qmul_assoc p q r : qmul p (qmul q r) = qmul (qmul p q) r. Proof. vring. Qed.
Lemma qmul_1_l q : qmul qone q = q. Proof. vring. Qed.
Lemma qmul_1_r q : qmul q qone = q. Proof. vring. Qed.
Lemma qinv_mul p q : qinv (qmul p q) = qmul (qinv q) (qinv p). Proof. vring. Qed.
Lemma qinv_inv q : qinv (qinv q) = q. Proof. vring. Qed.
Lemma qinv_one : qinv qone = qone. Proof. vring. Qed.
Lemma qnorm2_mul p q : qnorm2 (qmul p q) = qnorm2 p * qnorm2 q. Proof. vring. Qed.
Lemma qnorm2_inv q : qnorm2 (qinv q) = qnorm2 q. Proof. vring. Qed.
Lemma qnorm2_neg q : qnorm2 (qneg q) = qnorm2 q. Proof. vring. Qed.
Lemma qmul_inv_r_gen q : qmul q (qinv q) = qscale (qnorm2 q) qone. Proof. vring. Qed.
Lemma qmul_inv_l_gen q : qmul (qinv q) q = qscale (qnorm2 q) qone. Proof. vring. Qed.
Lemma qmul_neg_l p q : qmul (qneg p) q = qneg (qmul p q). Proof. vring. Qed.
Lemma qmul_neg_r p q : qmul p (qneg q) = qneg (qmul p q). Proof. vring. Qed.
Lemma qneg_neg q : qneg (qneg q) = q. Proof. vring. Qed.
Lemma qscale_1 q : qscale 1 q = q. Proof. vring. Qed.

Lemma qunit_one : qunit qone. Proof. unfold qunit. vunfold. ring. Qed.
Lemma qunit_mul p q : qunit p -> qunit q -> qunit (qmul p q).
Proof. unfold qunit. intros Hp Hq. rewrite qnorm2_mul, Hp, Hq. ring. Qed.
Lemma qunit_inv q : qunit q -> qunit (qinv q).
Proof. unfold qunit. now rewrite qnorm2_inv. Qed.
Lemma qunit_neg q : qunit q -> qunit (qneg q).
Proof. unfold qunit. now rewrite qnorm2_neg. Qed.
Lemma qmul_inv_r q : qunit q -> qmul q (qinv q) = qone.
Proof. intros H. rewrite qmul_inv_r_gen, H. apply qscale_1. Qed.
Lemma qmul_inv_l q : qunit q -> qmul (qinv q) q = qone.
Proof. intros H. rewrite qmul_inv_l_gen, H. apply qscale_1. Qed.

Lemma rotate_add a b q : rotate (vadd a b) q = vadd (rotate a q) (rotate b q). Proof. vring. Qed.
Lemma rotate_sub a b q : rotate (vsub a b) q = vsub (rotate a q) (rotate b q). Proof. vring. Qed.
Lemma rotate_scale c a q : rotate (vscale c a) q = vscale c (rotate a q). Proof. vring. Qed.
Lemma rotate_neg a q : rotate (vneg a) q = vneg (rotate a q). Proof. vring. Qed.
Lemma rotate_zero q : rotate vzero q = vzero. Proof. vring. Qed.
Lemma rotate_one a : rotate a qone = a. Proof. vring. Qed.
Lemma rotate_qneg a q : rotate a (qneg q) = rotate a q. Proof. vring. Qed.
Lemma rotate_mul a p q : rotate a (qmul p q) = rotate (rotate a q) p.
Proof.
  unfold rotate, rotate_quat. rewrite qinv_mul.
  assert (E : forall s, Q4 0 (vx (qvec s)) (vy (qvec s)) (vz (qvec s)) = Q4 0 (qx s) (qy s) (qz s)) by reflexivity.
  rewrite E.
  assert (Z : qw (qmul q (qmul (Q4 0 (vx a) (vy a) (vz a)) (qinv q))) = 0) by vring.
  set (s := qmul q (qmul (Q4 0 (vx a) (vy a) (vz a)) (qinv q))) in *.
  replace (Q4 0 (qx s) (qy s) (qz s)) with s by (rewrite <- Z; destruct s; reflexivity).
  unfold s. rewrite !qmul_assoc. reflexivity.
Qed.
Lemma rotate_inv_l a q : qunit q -> rotate (rotate a q) (qinv q) = a.
Proof. intros H. rewrite <- rotate_mul, qmul_inv_l by auto. apply rotate_one. Qed.
Lemma rotate_inv_r a q : qunit q -> rotate (rotate a (qinv q)) q = a.
Proof. intros H. rewrite <- rotate_mul, qmul_inv_r by auto. apply rotate_one. Qed.
Lemma rotate_dot_gen a b q : dot (rotate a q) (rotate b q) = qnorm2 q * qnorm2 q * dot a b. Proof. vring. Qed.
Lemma rotate_dot a b q : qunit q -> dot (rotate a q) (rotate b q) = dot a b.
Proof. intros H. rewrite rotate_dot_gen, H. ring. Qed.
Lemma rotate_cross_gen a b q : cross (rotate a q) (rotate b q) = vscale (qnorm2 q) (rotate (cross a b) q). Proof. vring. Qed.
Lemma rotate_cross a b q : qunit q -> cross (rotate a q) (rotate b q) = rotate (cross a b) q.
Proof. intros H. rewrite rotate_cross_gen, H. apply vscale_1. Qed.
Lemma rotate_norm a q : qunit q -> vnorm (rotate a q) = vnorm a.
Proof. intros H. unfold vnorm. now rewrite rotate_dot. Qed.
Lemma rotate_adj a b q : dot (rotate a q) b = dot a (rotate b (qinv q)). Proof. vring. Qed.

Lemma quat_to_3x3_unit q : qunit q -> quat_to_3x3 q =
  M3 (V3 (1 - 2 * (qy q * qy q + qz q * qz q)) (2 * (qx q * qy q - qw q * qz q)) (2 * (qx q * qz q + qw q * qy q)))
     (V3 (2 * (qx q * qy q + qw q * qz q)) (1 - 2 * (qx q * qx q + qz q * qz q)) (2 * (qy q * qz q - qw q * qx q)))
     (V3 (2 * (qx q * qz q - qw q * qy q)) (2 * (qy q * qz q + qw q * qx q)) (1 - 2 * (qx q * qx q + qy q * qy q))).
Proof.
  intros H. unfold quat_to_3x3. change (qdot q q) with (qnorm2 q). rewrite H. vsplit; field.
Qed.
Lemma rotate_3x3 v q : qunit q -> mvmul (quat_to_3x3 q) v = rotate v q.
Proof.
  intros H. rewrite quat_to_3x3_unit by auto. unfold qunit in H. destruct q as [w x y z], v as [a b c]. vunfold.
  f_equal; nsatz.
Qed.

(** ** Transforms *)
Definition tunit (t : transform) : Prop := qunit (t_rot t).
Lemma tunit_zero : tunit t_zero. Proof. apply qunit_one. Qed.
Lemma tunit_mul a b : tunit a -> tunit b -> tunit (t_mul a b).
Proof. unfold tunit. simpl. apply qunit_mul. Qed.
Lemma tunit_inv a : tunit a -> tunit (t_inv a).
Proof. unfold tunit. simpl. apply qunit_inv. Qed.

Lemma transform_ext a b : t_pos a = t_pos b -> t_rot a = t_rot b -> a = b.
Proof. destruct a, b; simpl; congruence. Qed.
Lemma spatial_ext a b : ang a = ang b -> vel a = vel b -> a = b.
Proof. destruct a, b; simpl; congruence. Qed.

Lemma t_mul_assoc a b c : t_mul a (t_mul b c) = t_mul (t_mul a b) c.
Proof.
  apply transform_ext; simpl; [|apply qmul_assoc].
  rewrite rotate_add, qinv_mul, rotate_mul, vadd_assoc. reflexivity.
Qed.
Lemma t_mul_0_l a : t_mul t_zero a = a.
Proof. apply transform_ext; simpl; [|apply qmul_1_l]. now rewrite rotate_zero, vadd_0_r. Qed.
Lemma t_mul_0_r a : t_mul a t_zero = a.
Proof. apply transform_ext; simpl; [|apply qmul_1_r]. now rewrite qinv_one, rotate_one, vadd_0_l. Qed.
Lemma t_mul_inv_l a : tunit a -> t_mul (t_inv a) a = t_zero.
Proof.
  intros H. apply transform_ext; simpl; [|now apply qmul_inv_l]. rewrite rotate_inv_l by auto. vring.
Qed.
Lemma t_mul_inv_r a : tunit a -> t_mul a (t_inv a) = t_zero.
Proof.
  intros H. apply transform_ext; simpl; [|now apply qmul_inv_r]. rewrite qinv_inv, rotate_neg. vring.
Qed.
Lemma t_inv_inv a : tunit a -> t_inv (t_inv a) = a.
Proof.
  intros H. apply transform_ext; simpl; [|apply qinv_inv]. rewrite rotate_neg, rotate_neg, rotate_neg, rotate_inv_l by auto. vring.
Qed.

Lemma t_motion_zero m : t_motion t_zero m = m.
Proof. apply spatial_ext; simpl; rewrite ?rotate_one; auto. vring. Qed.
Lemma t_force_zero f : t_force t_zero f = f.
Proof. apply spatial_ext; simpl; rewrite ?rotate_one; auto. vring. Qed.
Lemma t_motion_mul a b m : tunit a -> tunit b -> t_motion (t_mul a b) m = t_motion a (t_motion b m).
Proof.
  intros Ha Hb. apply spatial_ext; simpl; rewrite rotate_mul; auto. f_equal. unfold tunit in *.
  rewrite !rotate_add, !rotate_neg. rewrite <- (rotate_cross (vadd _ _)) by auto.
  rewrite rotate_add, rotate_inv_r by auto. rewrite <- rotate_cross by auto.
  generalize (rotate (t_pos b) (t_rot b)) (rotate (ang m) (t_rot b)) (rotate (vel m) (t_rot b)) (t_pos a). vring.
Qed.
Lemma t_force_mul a b f : tunit a -> tunit b -> t_force (t_mul a b) f = t_force a (t_force b f).
Proof.
  intros Ha Hb. apply spatial_ext; simpl; rewrite rotate_mul; auto. f_equal. unfold tunit in *.
  rewrite !rotate_sub. rewrite <- (rotate_cross (vadd _ _)) by auto.
  rewrite rotate_add, rotate_inv_r by auto. rewrite <- rotate_cross by auto.
  generalize (rotate (t_pos b) (t_rot b)) (rotate (ang f) (t_rot b)) (rotate (vel f) (t_rot b)) (t_pos a). vring.
Qed.
Lemma t_motion_inv_l a m : tunit a -> t_motion (t_inv a) (t_motion a m) = m.
Proof. intros H. rewrite <- t_motion_mul, t_mul_inv_l by (auto using tunit_inv). apply t_motion_zero. Qed.
Lemma t_motion_inv_r a m : tunit a -> t_motion a (t_motion (t_inv a) m) = m.
Proof. intros H. rewrite <- t_motion_mul, t_mul_inv_r by (auto using tunit_inv). apply t_motion_zero. Qed.
Lemma t_force_inv_l a m : tunit a -> t_force (t_inv a) (t_force a m) = m.
Proof. intros H. rewrite <- t_force_mul, t_mul_inv_l by (auto using tunit_inv). apply t_force_zero. Qed.
Lemma t_force_inv_r a m : tunit a -> t_force a (t_force (t_inv a) m) = m.
Proof. intros H. rewrite <- t_force_mul, t_mul_inv_r by (auto using tunit_inv). apply t_force_zero. Qed.

(** Linearity. *)
Lemma t_motion_add t a b : t_motion t (sadd a b) = sadd (t_motion t a) (t_motion t b).
Proof. apply spatial_ext; simpl; rewrite <- ?rotate_add; auto. f_equal. vring. Qed.
Lemma t_motion_scale t c a : t_motion t (sscale c a) = sscale c (t_motion t a).
Proof. apply spatial_ext; simpl; rewrite <- ?rotate_scale; auto. f_equal. vring. Qed.
Lemma t_force_add t a b : t_force t (sadd a b) = sadd (t_force t a) (t_force t b).
Proof. apply spatial_ext; simpl; rewrite <- ?rotate_add; auto. f_equal. vring. Qed.
Lemma t_force_scale t c a : t_force t (sscale c a) = sscale c (t_force t a).
Proof. apply spatial_ext; simpl; rewrite <- ?rotate_scale; auto. f_equal. vring. Qed.
Lemma i_mul_add i a b : i_mul i (sadd a b) = sadd (i_mul i a) (i_mul i b). Proof. vring. Qed.
Lemma i_mul_scale i c a : i_mul i (sscale c a) = sscale c (i_mul i a). Proof. vring. Qed.
Lemma i_mul_iadd i j a : i_mul (iadd i j) a = sadd (i_mul i a) (i_mul j a). Proof. vring. Qed.
Lemma i_mul_izero a : i_mul izero a = szero. Proof. vring. Qed.
Lemma m_dot_add_l a b f : m_dot (sadd a b) f = m_dot a f + m_dot b f. Proof. vring. Qed.
Lemma m_dot_add_r a f g : m_dot a (sadd f g) = m_dot a f + m_dot a g. Proof. vring. Qed.
Lemma m_dot_scale_l c a f : m_dot (sscale c a) f = c * m_dot a f. Proof. vring. Qed.
Lemma m_dot_scale_r c a f : m_dot a (sscale c f) = c * m_dot a f. Proof. vring. Qed.
Lemma m_dot_comm a f : m_dot a f = m_dot f a. Proof. vring. Qed.
Lemma m_dot_zero_l f : m_dot szero f = 0. Proof. vring. Qed.
Lemma m_dot_zero_r f : m_dot f szero = 0. Proof. vring. Qed.

(** Power does not depend on the frame. *)
Lemma power_invariant t m f : tunit t -> m_dot (t_motion t m) (t_force t f) = m_dot m f.
Proof.
  intros H. unfold m_dot. simpl. rewrite !rotate_dot by auto. vring.
Qed.
(** The dual statement: t_force is the inverse transpose of t_motion. *)
Lemma t_force_adj t m f : tunit t -> m_dot m (t_force t f) = m_dot (t_motion (t_inv t) m) f.
Proof.
  intros H. rewrite <- (power_invariant t (t_motion (t_inv t) m) f H), t_motion_inv_r; auto.
Qed.

Lemma mvmul_mmul a b v : mvmul (mmul a b) v = mvmul a (mvmul b v). Proof. vring. Qed.
Lemma mvmul_madd a b v : mvmul (madd a b) v = vadd (mvmul a v) (mvmul b v). Proof. vring. Qed.
Lemma mvmul_add a u v : mvmul a (vadd u v) = vadd (mvmul a u) (mvmul a v). Proof. vring. Qed.
Lemma cross_matrix_mul a v : mvmul (cross_matrix a) v = cross a v. Proof. vring. Qed.
Lemma quat_to_3x3_inv q : qunit q -> mtrans (quat_to_3x3 q) = quat_to_3x3 (qinv q).
Proof. intros H. rewrite !quat_to_3x3_unit by auto using qunit_inv. destruct q. vunfold. vsplit; ring. Qed.
Lemma rotate_matrix_mul m v q : qunit q -> mvmul (rotate_matrix m q) v = rotate (mvmul m (rotate v (qinv q))) q.
Proof.
  intros H. unfold rotate_matrix. cbv zeta. rewrite !mvmul_mmul, quat_to_3x3_inv, !rotate_3x3 by auto using qunit_inv. reflexivity.
Qed.

(** Transforming an inertia is compatible with applying it. *)
Lemma inertia_transform t it m : tunit t -> i_mul (t_inertia t it) (t_motion t m) = t_force t (i_mul it m).
Proof.
  intros H. unfold tunit in H. apply spatial_ext; unfold t_inertia; cbv zeta; simpl.
  - rewrite rotate_matrix_mul, rotate_inv_l, rotate_cross, <- rotate_add by auto. f_equal.
    rewrite !mvmul_madd, !mvmul_mmul, !cross_matrix_mul.
    generalize (mvmul (i_3x3 it) (ang m)). vring.
  - rewrite rotate_cross, <- rotate_scale, <- rotate_sub by auto. f_equal. vring.
Qed.
Lemma kinetic_invariant t it m : tunit t -> m_dot (t_motion t m) (i_mul (t_inertia t it) (t_motion t m)) = m_dot m (i_mul it m).
Proof. intros H. rewrite inertia_transform by auto. now apply power_invariant. Qed.
Lemma t_inertia_i_mul t it m : tunit t -> i_mul (t_inertia t it) m = t_force t (i_mul it (t_motion (t_inv t) m)).
Proof. intros H. rewrite <- inertia_transform, t_motion_inv_r by auto. reflexivity. Qed.

(** as_matrix *)
Lemma as_matrix_motion t m : tunit t -> m6vec (t_as_matrix t) m = t_motion t m.
Proof.
  intros H. unfold t_as_matrix. cbv zeta.
  assert (E : forall a b s, m6vec (m6mul a b) s = m6vec a (m6vec b s)) by vring. rewrite E.
  apply spatial_ext; cbn [m6vec m_aa m_ab m_ba m_bb ang vel xlt t_motion].
  - rewrite <- rotate_3x3 by auto. generalize (quat_to_3x3 (t_rot t)). vring.
  - rewrite <- rotate_3x3 by auto. generalize (quat_to_3x3 (t_rot t)). vring.
Qed.
Lemma as_matrix_inertia it m : m6vec (i_as_matrix it) m = i_mul it m. Proof. vring. Qed.
Lemma crm_mul a b : m6vec (crm a) b = m_cross a b. Proof. vring. Qed.
Lemma crf_mul a b : m6vec (crf a) b = m_cross_star a b. Proof. vring. Qed.
Lemma m6trans_dot a u v : m_dot u (m6vec (m6trans a) v) = m_dot (m6vec a u) v. Proof. vring. Qed.
Lemma m6_ext a b : (forall s, m6vec a s = m6vec b s) -> a = b.
Proof.
  intros H. pose proof (H (Sp x_unit vzero)) as H1. pose proof (H (Sp y_unit vzero)) as H2. pose proof (H (Sp z_unit vzero)) as H3.
  pose proof (H (Sp vzero x_unit)) as H4. pose proof (H (Sp vzero y_unit)) as H5. pose proof (H (Sp vzero z_unit)) as H6. clear H.
  destruct a as [[[] [] []] [[] [] []] [[] [] []] [[] [] []]], b as [[[] [] []] [[] [] []] [[] [] []] [[] [] []]]. vunfold.
  injection H1; injection H2; injection H3; injection H4; injection H5; injection H6. intros.
  vsplit; lra.
Qed.
Lemma as_matrix_mul a b : tunit a -> tunit b -> t_as_matrix (t_mul a b) = m6mul (t_as_matrix a) (t_as_matrix b).
Proof.
  intros Ha Hb. apply m6_ext. intros s. rewrite as_matrix_motion by now apply tunit_mul.
  assert (E : forall a b s, m6vec (m6mul a b) s = m6vec a (m6vec b s)) by vring. rewrite E, !as_matrix_motion by auto.
  now apply t_motion_mul.
Qed.
Lemma spatial_dot_ext f g : (forall m, m_dot m f = m_dot m g) -> f = g.
Proof.
  intros H. pose proof (H (Sp x_unit vzero)) as H1. pose proof (H (Sp y_unit vzero)) as H2. pose proof (H (Sp z_unit vzero)) as H3.
  pose proof (H (Sp vzero x_unit)) as H4. pose proof (H (Sp vzero y_unit)) as H5. pose proof (H (Sp vzero z_unit)) as H6. clear H.
  destruct f as [[] []], g as [[] []]. vunfold. vsplit; lra.
Qed.
Lemma as_matrix_force t f : tunit t -> m6vec (m6trans (t_as_matrix (t_inv t))) f = t_force t f.
Proof.
  intros H. apply spatial_dot_ext. intros m. rewrite m6trans_dot, as_matrix_motion, t_force_adj; auto using tunit_inv.
Qed.

(** Cross products transform like vectors, and [m_cross_star] is the dual of [m_cross]. *)
Lemma m_cross_dual a m f : m_dot (m_cross a m) f = - m_dot m (m_cross_star a f). Proof. vring. Qed.
Lemma m_cross_jacobi a b c : sadd (m_cross a (m_cross b c)) (sadd (m_cross b (m_cross c a)) (m_cross c (m_cross a b))) = szero.
Proof. vring. Qed.
Lemma t_motion_cross t a b : tunit t -> t_motion t (m_cross a b) = m_cross (t_motion t a) (t_motion t b).
Proof.
  intros H. unfold tunit in H. apply spatial_ext; simpl; rewrite !rotate_cross by auto; auto.
  rewrite <- rotate_add. f_equal. vring.
Qed.
