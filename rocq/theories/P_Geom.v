(** * Inertias of geometries and links. *)
From Coq Require Import Reals Lra Lia ZArith List.
From Verif Require Import Prelude M_Sys S_Sys P_Sys M_Math P_Math M_Geom.
Import ListNotations.
Local Open Scope R_scope.

(** Kinetic energy (times two) of a body with inertia [it] moving with [s]. *)
Definition energy2 (it : inertia) (s : spatial) : R := m_dot s (i_mul it s).
Definition msym (m : mat3) : Prop := mtrans m = m.
Definition isym (it : inertia) : Prop := msym (i_3x3 it).
Definition ipsd (it : inertia) : Prop := forall s, 0 <= energy2 it s.

Lemma isym_dot it a b : isym it -> m_dot a (i_mul it b) = m_dot b (i_mul it a).
Proof.
  unfold isym, msym. destruct it as [[[x1 y1 z1] [x2 y2 z2] [x3 y3 z3]] [h1 h2 h3] m], a as [[] []], b as [[] []].
  vunfold. intros H. injection H as H1 H2 H3 H4 H5 H6. subst. ring.
Qed.
Lemma isym_matrix it : isym it -> m6trans (i_as_matrix it) = i_as_matrix it.
Proof.
  unfold isym, msym. destruct it as [[[x1 y1 z1] [x2 y2 z2] [x3 y3 z3]] [h1 h2 h3] m].
  vunfold. intros H. injection H as H1 H2 H3 H4 H5 H6. subst. vsplit; try ring; reflexivity.
Qed.
Lemma energy2_iadd a b s : energy2 (iadd a b) s = energy2 a s + energy2 b s.
Proof. unfold energy2. rewrite i_mul_iadd. apply m_dot_add_r. Qed.
Lemma isym_iadd a b : isym a -> isym b -> isym (iadd a b).
Proof.
  unfold isym, msym. destruct a as [[[] [] []] h m], b as [[[] [] []] h' m']. vunfold. intros H H'.
  injection H as ? ? ? ? ? ?. injection H' as ? ? ? ? ? ?. subst. reflexivity.
Qed.
Lemma isym_izero : isym izero. Proof. reflexivity. Qed.

Lemma energy2_create m t I0 s : tunit t ->
  energy2 (inertia_create m t I0) s =
  let w := rotate (ang s) (t_rot t) in
  let v := vsub (vel s) (cross (t_pos t) (ang s)) in
  dot w (mvmul I0 w) + m * dot v v.
Proof.
  intros H. unfold tunit in H. unfold energy2, inertia_create, mcI_aa, m_dot, i_mul. cbv zeta. cbn [i_3x3 i_h i_mass ang vel].
  rewrite mvmul_madd, rotate_matrix_mul, qinv_inv by now apply qunit_inv.
  rewrite rotate_adj. set (J := mvmul I0 _). replace (dot (ang s) (vadd (vadd (rotate J (qinv (t_rot t))) _) _)) with
    (dot (ang s) (rotate J (qinv (t_rot t))) + dot (ang s) (vadd (mvmul (mneg (mmul (mscale m (cross_matrix (t_pos t))) (cross_matrix (t_pos t)))) (ang s)) (cross (vscale m (t_pos t)) (vel s)))).
  2:{ generalize (rotate J (qinv (t_rot t))). clear. vring. }
  generalize (dot (ang s) (rotate J (qinv (t_rot t)))). clear. intros a. destruct t as [p q]. destruct p, s as [[] []]. cbn [t_pos]. vunfold. ring.
Qed.

Lemma inertia_create_spec m t I0 : tunit t -> inertia_create m t I0 = t_inertia (t_inv t) (In3 I0 vzero m).
Proof.
  intros H. unfold tunit in H. unfold inertia_create, t_inertia. cbv zeta. cbn [t_inv t_pos t_rot i_3x3 i_h i_mass].
  f_equal.
  - rewrite rotate_neg. set (r := rotate (t_pos t) (t_rot t)).
    assert (E : t_pos t = rotate r (qinv (t_rot t))) by (unfold r; now rewrite rotate_inv_l).
    set (p := t_pos t) in *. set (q := t_rot t) in *.
    unfold mcI_aa.
    assert (X : forall A B, (forall v, mvmul A v = mvmul B v) -> A = B).
    { clear. intros A B H. pose proof (H x_unit) as H1. pose proof (H y_unit) as H2. pose proof (H z_unit) as H3. clear H.
      destruct A as [[] [] []], B as [[] [] []]. vunfold.
      injection H1 as E1 E2 E3. injection H2 as E4 E5 E6. injection H3 as E7 E8 E9. vsplit; lra. }
    apply X. intros v. pose proof (qunit_inv _ H) as H'. rewrite mvmul_madd, !rotate_matrix_mul by auto.
    rewrite qinv_inv, !mvmul_madd, !mvmul_mmul, !cross_matrix_mul. rewrite !rotate_add.
    assert (Y : mvmul (mneg (mmul (mscale m (cross_matrix p)) (cross_matrix p))) v = vscale (- m) (cross p (cross p v))) by (clear; vring).
    rewrite Y. rewrite <- vadd_assoc. f_equal.
    replace (cross vzero (rotate v q)) with vzero by (clear; generalize (rotate v q); vring).
    replace (cross (vneg r) vzero) with vzero by (clear; vring). rewrite rotate_zero, vadd_0_l.
    replace (cross (vsub vzero (vscale m (vneg r))) (cross (vneg r) (rotate v q))) with (vscale (- m) (cross r (cross r (rotate v q))))
      by (clear; generalize (rotate v q); vring).
    rewrite rotate_scale, <- !rotate_cross, rotate_inv_l, <- E by auto. reflexivity.
  - replace (vsub vzero (vscale m (rotate (vneg (t_pos t)) (t_rot t)))) with (vscale m (rotate (t_pos t) (t_rot t)))
      by (rewrite rotate_neg; clear; generalize (rotate (t_pos t) (t_rot t)); vring).
    rewrite rotate_scale, rotate_inv_l by auto. reflexivity.
Qed.

(** Shapes with non-negative dimensions; a capsule needs a positive radius (its volume is a divisor). *)
Definition shape_ok (s : shape) : Prop :=
  match s with
  | XYZ _ => True
  | Sphere r => 0 <= r
  | Box x y z => 0 <= x /\ 0 <= y /\ 0 <= z
  | Cylinder r l => 0 <= r /\ 0 <= l
  | Capsule r l => 0 < r /\ 0 <= l
  end.

Lemma it_3x3_diag m s : exists a b c, get_it_3x3 m s = mdiag a b c /\ (0 <= m -> shape_ok s -> 0 <= a /\ 0 <= b /\ 0 <= c).
Proof.
  destruct s; cbn [get_it_3x3 shape_ok].
  - exists 0, 0, 0. split; [reflexivity|lra].
  - exists (2 / 5 * m * radius ^ 2), (2 / 5 * m * radius ^ 2), (2 / 5 * m * radius ^ 2). split; [vunfold; vsplit; ring|].
    intros H _. assert (0 <= 2 / 5 * m * radius ^ 2) by (apply Rmult_le_pos; [lra|]; nra). auto.
  - exists (1 / 12 * m * (dim_y ^ 2 + dim_z ^ 2)), (1 / 12 * m * (dim_x ^ 2 + dim_z ^ 2)), (1 / 12 * m * (dim_x ^ 2 + dim_y ^ 2)).
    split; [vunfold; vsplit; ring|].
    intros H _. repeat split; apply Rmult_le_pos; nra.
  - exists (1 / 12 * m * (6 * radius ^ 2)), (1 / 12 * m * (3 * radius ^ 2 + length ^ 2)), (1 / 12 * m * (3 * radius ^ 2 + length ^ 2)).
    split; [vunfold; vsplit; ring|].
    intros H _. repeat split; apply Rmult_le_pos; nra.
  - cbv zeta. do 3 eexists. split; [reflexivity|]. intros H (R & D). rename length into d, radius into r.
    pose proof PI_RGT_0 as PP.
    assert (V1 : 0 <= PI * r ^ 2 * d) by (apply Rmult_le_pos; [apply Rmult_le_pos; nra|auto]).
    assert (V2 : 0 < 4 / 3 * PI * r ^ 3) by (apply Rmult_lt_0_compat; [lra|apply pow_lt; auto]).
    set (vc := PI * r ^ 2 * d) in *. set (vp := 4 / 3 * PI * r ^ 3) in *.
    assert (M1 : 0 <= m * vc / (vc + vp)) by (apply Rmult_le_pos; [nra|left; apply Rinv_0_lt_compat; lra]).
    assert (M2 : 0 <= m * vp / (vc + vp)) by (apply Rmult_le_pos; [nra|left; apply Rinv_0_lt_compat; lra]).
    set (mc := m * vc / (vc + vp)) in *. set (mp := m * vp / (vc + vp)) in *. clearbody mc mp.
    assert (0 <= 0.25 * r ^ 2 + 1 / 12 * d ^ 2) by nra. assert (0 <= r * d) by nra. assert (0 <= 0.4 * r ^ 2 + 0.375 * r * d + 0.25 * d ^ 2) by nra.
    assert (0 <= mc * (0.25 * r ^ 2 + 1 / 12 * d ^ 2) + mp * (0.4 * r ^ 2 + 0.375 * r * d + 0.25 * d ^ 2)).
    { apply Rplus_le_le_0_compat; now apply Rmult_le_pos. }
    split; [|split]; auto. apply Rmult_le_pos; nra.
Qed.

Definition geom_inertia (g : geometry) : inertia :=
  inertia_create (g_mass g) (g_transform g) (get_it_3x3 (g_mass g) (g_shape g)).

Lemma inertia_fold gs it0 : fold_left (fun it g => iadd it (geom_inertia g)) gs it0 =
  iadd it0 (inertia_from_geometries gs).
Proof.
  unfold inertia_from_geometries. change (fun it g => iadd it (inertia_create _ _ _)) with (fun it g => iadd it (geom_inertia g)).
  revert it0. induction gs as [|g gs IH]; intros it0; cbn [fold_left]; [vring|]. rewrite IH, (IH (iadd izero _)).
  generalize (geom_inertia g) (fold_left (fun it g => iadd it (geom_inertia g)) gs izero). clear. vring.
Qed.
Lemma inertia_nil : inertia_from_geometries [] = izero. Proof. reflexivity. Qed.
Lemma inertia_cons g gs : inertia_from_geometries (g :: gs) = iadd (geom_inertia g) (inertia_from_geometries gs).
Proof.
  unfold inertia_from_geometries at 1. cbn [fold_left].
  change (fun it g => iadd it (inertia_create _ _ _)) with (fun it g => iadd it (geom_inertia g)). rewrite inertia_fold. f_equal.
  change (iadd izero (geom_inertia g) = geom_inertia g). generalize (geom_inertia g). vring.
Qed.
Lemma inertia_mass gs : i_mass (inertia_from_geometries gs) = fold_right Rplus 0 (map g_mass gs).
Proof. induction gs; [reflexivity|]. rewrite inertia_cons. cbn. now rewrite IHgs. Qed.
Lemma inertia_h gs : i_h (inertia_from_geometries gs) = fold_right vadd vzero (map (fun g => vscale (g_mass g) (t_pos (g_transform g))) gs).
Proof. induction gs; [reflexivity|]. rewrite inertia_cons. cbn. now rewrite IHgs. Qed.
Lemma inertia_energy gs s : energy2 (inertia_from_geometries gs) s = fold_right Rplus 0 (map (fun g => energy2 (geom_inertia g) s) gs).
Proof.
  induction gs; [unfold energy2; rewrite inertia_nil, i_mul_izero; apply m_dot_zero_r|].
  rewrite inertia_cons, energy2_iadd, IHgs. reflexivity.
Qed.

Lemma msym_rotate m q : qunit q -> msym m -> msym (rotate_matrix m q).
Proof.
  unfold msym, rotate_matrix. cbv zeta. intros _ H.
  assert (T : forall a b, mtrans (mmul a b) = mmul (mtrans b) (mtrans a)) by vring.
  assert (TT : forall a, mtrans (mtrans a) = a) by vring.
  assert (As : forall a b c, mmul a (mmul b c) = mmul (mmul a b) c) by vring.
  rewrite !T, TT, H. apply As.
Qed.
Lemma isym_create m t I0 : tunit t -> msym I0 -> isym (inertia_create m t I0).
Proof.
  intros H S. unfold isym, inertia_create. cbv zeta. cbn [i_3x3]. pose proof (msym_rotate I0 (qinv (t_rot t)) (qunit_inv _ H) S) as X.
  set (A := rotate_matrix _ _) in *. clearbody A. unfold msym, mcI_aa in *. destruct (t_pos t) as [x y z]. destruct A as [[] [] []].
  vunfold. injection X as ? ? ? ? ? ?. subst. vsplit; ring.
Qed.
Lemma isym_geom g : tunit (g_transform g) -> isym (geom_inertia g).
Proof.
  intros H. apply isym_create; auto. destruct (it_3x3_diag (g_mass g) (g_shape g)) as (a & b & c & -> & _). reflexivity.
Qed.
Lemma ipsd_geom g : tunit (g_transform g) -> 0 <= g_mass g -> shape_ok (g_shape g) -> ipsd (geom_inertia g).
Proof.
  intros H M S s. unfold geom_inertia. rewrite energy2_create by auto. cbv zeta.
  destruct (it_3x3_diag (g_mass g) (g_shape g)) as (a & b & c & -> & P). destruct (P M S) as (A & B & C).
  generalize (rotate (ang s) (t_rot (g_transform g))). intros w.
  pose proof (dot_nonneg (vsub (vel s) (cross (t_pos (g_transform g)) (ang s)))) as V.
  apply Rplus_le_le_0_compat; [|now apply Rmult_le_pos].
  destruct w as [x y z]. vunfold. replace (x * (a * x + 0 * y + 0 * z) + y * (0 * x + b * y + 0 * z) + z * (0 * x + 0 * y + c * z))
    with (a * (x * x) + b * (y * y) + c * (z * z)) by ring.
  pose proof (Rmult_le_pos _ _ A (Rle_0_sqr x)). pose proof (Rmult_le_pos _ _ B (Rle_0_sqr y)). pose proof (Rmult_le_pos _ _ C (Rle_0_sqr z)).
  unfold Rsqr in *. lra.
Qed.
Lemma isym_from gs : Forall (fun g => tunit (g_transform g)) gs -> isym (inertia_from_geometries gs).
Proof.
  induction 1; [apply isym_izero|]. rewrite inertia_cons. apply isym_iadd; auto. now apply isym_geom.
Qed.
Lemma ipsd_from gs : Forall (fun g => tunit (g_transform g) /\ 0 <= g_mass g /\ shape_ok (g_shape g)) gs -> ipsd (inertia_from_geometries gs).
Proof.
  intros H s. rewrite inertia_energy. induction H as [|g gs (A & B & C) _ IH]; cbn; [lra|].
  pose proof (ipsd_geom g A B C s). lra.
Qed.
