(** * C78: where and how the geometries of a system are drawn. *)
From Coq Require Import Reals Lra Nsatz.
From Coq Require Import ZArith Lia Bool List.
From Verif Require Import Prelude M_Math P_Math P_Trig M_Geom S_Kin M_Render S_Render.
Import ListNotations.
Local Open Scope R_scope.

(** ** Rigid placements *)

Lemma to_world_mul a b p : to_world (t_mul a b) p = to_world b (to_world a p).
Proof. unfold to_world, t_mul. cbn [t_pos t_rot]. rewrite qinv_mul, rotate_mul, rotate_add. now rewrite vadd_assoc. Qed.

Lemma to_world_zero p : to_world t_zero p = p.
Proof. unfold to_world. vring. Qed.
Lemma to_world_dist x p q : qunit (t_rot x) -> dist2 (to_world x p) (to_world x q) = dist2 p q.
Proof.
  intros U. unfold dist2, to_world.
  replace (vsub (vadd (t_pos x) (rotate p (qinv (t_rot x)))) (vadd (t_pos x) (rotate q (qinv (t_rot x)))))
    with (rotate (vsub p q) (qinv (t_rot x))) by (rewrite rotate_sub; generalize (rotate p (qinv (t_rot x))) (rotate q (qinv (t_rot x))) (t_pos x); vring).
  apply rotate_dot, qunit_inv, U.
Qed.
Lemma to_world_segment x a b u :
  to_world x (vadd (vscale (1 - u) a) (vscale u b)) = vadd (vscale (1 - u) (to_world x a)) (vscale u (to_world x b)).
Proof.
  unfold to_world. rewrite rotate_add, !rotate_scale.
  generalize (rotate a (qinv (t_rot x))) (rotate b (qinv (t_rot x))) (t_pos x). vring.
Qed.
Lemma to_world_onto x p : qunit (t_rot x) -> exists p0, p = to_world x p0.
Proof.
  intros U. exists (rotate (vsub p (t_pos x)) (t_rot x)). unfold to_world. rewrite rotate_inv_l by exact U. generalize (t_pos x). vring.
Qed.

Lemma near_world x a b r p : qunit (t_rot x) -> near (to_world x a) (to_world x b) r (to_world x p) <-> near a b r p.
Proof.
  intros U. unfold near. split; intros (u & Hu & H); exists u; (split; [exact Hu|]).
  - now rewrite <- to_world_segment, to_world_dist in H by exact U.
  - now rewrite <- to_world_segment, to_world_dist by exact U.
Qed.
Lemma near_sym a b r p : near a b r p -> near b a r p.
Proof.
  intros (u & Hu & H). exists (1 - u). split; [lra|].
  replace (vadd (vscale (1 - (1 - u)) b) (vscale (1 - u) a)) with (vadd (vscale (1 - u) a) (vscale u b)) by vring. exact H.
Qed.
Lemma near_image x a b r p : qunit (t_rot x) ->
  (exists p0, near a b r p0 /\ p = to_world x p0) <-> near (to_world x a) (to_world x b) r p.
Proof.
  intros U. split.
  - intros (p0 & H & ->). now apply near_world.
  - intros H. destruct (to_world_onto x p U) as (p0 & ->). exists p0. split; [now apply near_world in H | reflexivity].
Qed.
Lemma t_mul_unit a b : qunit (t_rot a) -> qunit (t_rot b) -> qunit (t_rot (t_mul a b)).
Proof. intros A B. cbn [t_mul t_rot]. unfold qunit in *. rewrite qnorm2_mul, A, B. ring. Qed.

(** ** MuJoCo *)

Lemma mj_body_place xs i m g p :
  mj_pos m = t_pos (g_transform g) -> mj_quat m = qinv (t_rot (g_transform g)) ->
  mj_place (mj_body xs i) m p = to_world (pose_of xs i) (to_world (g_transform g) p).
Proof.
  intros E1 E2. unfold mj_place, to_world, mj_body, pose_of. rewrite E1, E2.
  destruct (i =? -1)%Z; cbn [fst snd]; [|reflexivity]. unfold t_zero. cbn [t_pos t_rot]. now rewrite qinv_one.
Qed.

Lemma exact_pose rnd g : exact rnd g ->
  rnd3 rnd (t_pos (g_transform g)) = t_pos (g_transform g) /\ rnd4 rnd (qinv (t_rot (g_transform g))) = qinv (t_rot (g_transform g)).
Proof.
  intros H. assert (X : forall v, In v ([vx (t_pos (g_transform g)); vy (t_pos (g_transform g)); vz (t_pos (g_transform g))]
      ++ [qw (t_rot (g_transform g)); - qx (t_rot (g_transform g)); - qy (t_rot (g_transform g)); - qz (t_rot (g_transform g))])%list -> rnd v = v).
  { intros v Hv. apply H. unfold numbers. apply in_or_app. now right. }
  destruct (g_transform g) as [[a b c] [w x y z]]. cbn in X. unfold rnd3, rnd4, qinv. cbn.
  split; repeat rewrite X; auto 10.
Qed.
Lemma exact_size rnd g v : exact rnd g -> In v (sizes (g_shape g)) -> rnd v = v.
Proof. intros H I. apply H. unfold numbers. apply in_or_app. now left. Qed.

(** Where any geometry is put: the pose of the geometry in its link, then the pose of the link. *)
Theorem C78_mujoco_placed rnd xs i g m p : exact rnd g -> xml_geom rnd g = Ok m ->
  mj_place (mj_body xs i) m p = to_world (pose_of xs i) (to_world (g_transform g) p).
Proof.
  intros X H. unfold xml_geom in H. apply bind_Ok in H. destruct H as (pr & _ & H). injection H as <-.
  destruct (exact_pose rnd g X) as [E1 E2]. apply mj_body_place; cbn; assumption.
Qed.

(** Boxes and spheres are drawn exactly where they are. *)
Theorem C78_mujoco rnd xs i g m : exact rnd g -> xml_geom rnd g = Ok m ->
  (exists x y z, g_shape g = Box x y z) \/ (exists r, g_shape g = Sphere r) ->
  forall p, mj_drawn (mj_body xs i) m p <-> occupied (pose_of xs i) g p.
Proof.
  intros X H S p. unfold mj_drawn, occupied.
  assert (D : forall p0, mj_solid (mj_prim_of m) p0 <-> solid (g_shape g) p0).
  { intros p0. unfold xml_geom in H. apply bind_Ok in H. destruct H as (pr & Hp & H). injection H as <-. cbn.
    pose proof (exact_size rnd g) as Z. destruct S as [(a & b & c & S)|(r & S)]; rewrite S in *; cbn in Hp; injection Hp as <-;
      cbn in *; rewrite !Z by (auto; tauto); reflexivity. }
  split; intros (p0 & H1 & H2); exists p0; (split; [now apply D|]); rewrite H2.
  - now apply (C78_mujoco_placed rnd).
  - symmetry. now apply (C78_mujoco_placed rnd).
Qed.

(** ** The axes of an XYZ geometry, before rounding *)

Lemma axis_rot u : dot u u = 1 ->
  quat_rot_axis u (PI / 2) = Q4 (cos (PI / 4)) (- sin (PI / 4) * vx u) (- sin (PI / 4) * vy u) (- sin (PI / 4) * vz u).
Proof.
  intros U. unfold quat_rot_axis. cbv zeta. rewrite safe_normalize_unit_id by exact U.
  replace (- (PI / 2) / 2) with (- (PI / 4)) by lra. now rewrite cos_neg, sin_neg.
Qed.
Lemma half_turn : cos (PI / 4) * cos (PI / 4) = / 2 /\ sin (PI / 4) = cos (PI / 4).
Proof.
  split; [|now rewrite sin_PI4, cos_PI4]. pose proof (sin2_cos2 (PI / 4)) as H. unfold Rsqr in H.
  rewrite sin_PI4, <- cos_PI4 in H. lra.
Qed.

Definition capsule_frame (size : R) (e axis : vec3) : transform :=
  Tr (vscale (/ 2) (vscale size e)) (quat_rot_axis axis (PI / 2)).

Lemma capsule_frame_unit size e axis : dot axis axis = 1 -> qunit (t_rot (capsule_frame size e axis)).
Proof.
  intros U. unfold capsule_frame. cbn [t_rot]. rewrite axis_rot by exact U. unfold qunit, qnorm2, qdot. cbn [qw qx qy qz].
  destruct half_turn as [H1 H2]. rewrite H2. unfold dot in U.
  replace (_ + _ + _ + _) with (cos (PI / 4) * cos (PI / 4) * (1 + (vx axis * vx axis + vy axis * vy axis + vz axis * vz axis))) by ring.
  rewrite U, H1. lra.
Qed.

Lemma capsule_ends size e axis : In (e, axis) [(x_unit, y_unit); (y_unit, x_unit); (z_unit, z_unit)] ->
  let lo := to_world (capsule_frame size e axis) (V3 0 0 (- (size / 2))) in
  let hi := to_world (capsule_frame size e axis) (V3 0 0 (size / 2)) in
  (lo = vzero /\ hi = vscale size e) \/ (hi = vzero /\ lo = vscale size e).
Proof.
  intros I. destruct half_turn as [H1 H2].
  assert (U : dot axis axis = 1) by (destruct I as [E|[E|[E|[]]]]; injection E as <- <-; vunfold; ring).
  cbv zeta. unfold to_world, capsule_frame. cbn [t_pos t_rot]. rewrite axis_rot by exact U. rewrite H2.
  set (c := cos (PI / 4)) in *.
  destruct I as [E|[E|[E|[]]]]; injection E as <- <-; [left | right | left];
    (split; vunfold; vsplit; unfold Rdiv in *; revert H1; assert (Hh : 2 * / 2 = 1) by lra; revert Hh;
     generalize (/ 2); intros h Hh H1; nsatz).
Qed.

Lemma xml_capsule t r l : xml_geom (fun v => v) (mkGeom 0 t (Capsule r l)) = Ok (mkMj (MjCapsule r (l / 2)) (t_pos t) (qinv (t_rot t))).
Proof. unfold xml_geom, rnd3, rnd4. cbn [g_shape g_transform mj_type_size bind]. now destruct (t_pos t), (qinv (t_rot t)). Qed.

(** The three capsules which replace an XYZ geometry are the rods along its axes, from its origin. *)
Theorem C78_axes xs i g size : g_shape g = XYZ size -> qunit (t_rot (g_transform g)) -> qunit (t_rot (pose_of xs i)) ->
  forall p, (exists c m, In (i, c) (replace_xyz_geoms [(i, g)]) /\ xml_geom (fun v => v) c = Ok m /\ mj_drawn (mj_body xs i) m p)
            <-> occupied (pose_of xs i) g p.
Proof.
  intros Hs U1 U2 p. unfold replace_xyz_geoms. cbn [flat_map]. rewrite Hs, app_nil_r.
  assert (F : forall e axis, In (e, axis) [(x_unit, y_unit); (y_unit, x_unit); (z_unit, z_unit)] ->
    (exists m, xml_geom (fun v => v) (mkGeom 0 (t_mul (capsule_frame size e axis) (g_transform g)) (Capsule (size / 7) size)) = Ok m
               /\ mj_drawn (mj_body xs i) m p)
    <-> exists p0, near vzero (vscale size e) (size / 7) p0 /\ p = to_world (pose_of xs i) (to_world (g_transform g) p0)).
  { intros e axis I.
    assert (U : dot axis axis = 1) by (destruct I as [E|[E|[E|[]]]]; injection E as <- <-; vunfold; ring).
    pose proof (capsule_frame_unit size e axis U) as U3. pose proof (capsule_ends size e axis I) as Ends. cbv zeta in Ends.
    set (f := capsule_frame size e axis) in *.
    transitivity (near (to_world (pose_of xs i) (to_world (g_transform g) vzero))
                       (to_world (pose_of xs i) (to_world (g_transform g) (vscale size e))) (size / 7) p).
    - transitivity (near (to_world (t_mul (t_mul f (g_transform g)) (pose_of xs i)) (V3 0 0 (- (size / 2))))
                         (to_world (t_mul (t_mul f (g_transform g)) (pose_of xs i)) (V3 0 0 (size / 2))) (size / 7) p).
      + rewrite <- near_image by (repeat apply t_mul_unit; assumption). split.
        * intros (m & Hm & p0 & H1 & H2). rewrite xml_capsule in Hm. injection Hm as <-. exists p0. split; [exact H1|].
          rewrite H2, to_world_mul.
          now apply (mj_body_place xs i _ (mkGeom 0 (t_mul f (g_transform g)) (Capsule (size / 7) size))).
        * intros (p0 & H1 & H2). eexists. split; [apply xml_capsule|]. exists p0. split; [exact H1|]. rewrite H2, to_world_mul. symmetry.
          now apply (mj_body_place xs i _ (mkGeom 0 (t_mul f (g_transform g)) (Capsule (size / 7) size))).
      + rewrite !to_world_mul. destruct Ends as [[-> ->]|[-> ->]]; [reflexivity|]. split; apply near_sym.
    - rewrite <- !to_world_mul. rewrite <- near_image by now apply t_mul_unit.
      split; intros (p0 & H1 & H2); exists p0; (split; [exact H1|]); rewrite H2, to_world_mul; reflexivity. }
  unfold occupied. rewrite Hs. cbn [solid]. split.
  - intros (c & m & I & Hm & D). apply in_map_iff in I. destruct I as (c' & E & I). injection E as <-.
    unfold xyz_to_three_capsules in I. apply in_map_iff in I. destruct I as ((e, axis) & <- & I).
    destruct (F e axis I) as [F1 _]. destruct F1 as (p0 & N & ->); [exists m; split; assumption|].
    exists p0. split; [|reflexivity]. exists e. split; [|exact N].
    unfold axes. destruct I as [E|[E|[E|[]]]]; injection E as <- <-; cbn; auto.
  - intros (p0 & (e & I & N) & ->).
    assert (A : exists axis, In (e, axis) [(x_unit, y_unit); (y_unit, x_unit); (z_unit, z_unit)]).
    { unfold axes in I. destruct I as [<-|[<-|[<-|[]]]]; eexists; cbn; eauto. }
    destruct A as (axis & A). destruct (F e axis A) as [_ F2]. destruct F2 as (m & Hm & D).
    { exists p0. split; [exact N | reflexivity]. }
    eexists. exists m. split; [|split; [exact Hm | exact D]].
    apply in_map_iff. eexists. split; [reflexivity|]. unfold xyz_to_three_capsules. apply in_map_iff.
    exists (e, axis). split; [reflexivity | exact A].
Qed.

(** The rounding to four decimals moves a drawn geometry by at most the rounding error in each coordinate. *)
Theorem C78_rounding rnd eps xs i g m : (forall v, Rabs (rnd v - v) <= eps) -> qunit (t_rot (pose_of xs i)) ->
  xml_geom rnd g = Ok m ->
  dist2 (mj_place (mj_body xs i) m vzero) (to_world (pose_of xs i) (to_world (g_transform g) vzero)) <= 3 * eps ^ 2.
Proof.
  intros Hr U H. unfold xml_geom in H. apply bind_Ok in H. destruct H as (pr & _ & H). injection H as <-.
  set (q := rnd4 rnd (qinv (t_rot (g_transform g)))).
  set (p := rnd3 rnd (t_pos (g_transform g))).
  replace (mj_place (mj_body xs i) (mkMj pr p q) vzero) with (to_world (pose_of xs i) p).
  - rewrite to_world_dist by exact U. unfold to_world. rewrite rotate_zero, vadd_0_r. subst p.
    unfold dist2, rnd3. destruct (t_pos (g_transform g)) as [a b c]. cbn.
    pose proof (Hr a) as A. pose proof (Hr b) as B. pose proof (Hr c) as C.
    assert (Q : forall v, Rabs (rnd v - v) <= eps -> (rnd v - v) * (rnd v - v) <= eps ^ 2).
    { intros v V.
      replace ((rnd v - v) * (rnd v - v)) with (Rabs (rnd v - v) * Rabs (rnd v - v)).
      - pose proof (Rabs_pos (rnd v - v)). cbn [pow]. nra.
      - rewrite <- Rabs_mult. apply Rabs_pos_eq. apply (Rle_0_sqr (rnd v - v)). }
    pose proof (Q a A). pose proof (Q b B). pose proof (Q c C). clear - H H0 H1. vunfold. lra.
  - unfold mj_place, mj_body, pose_of, to_world. cbn [mj_pos mj_quat]. rewrite rotate_zero, vadd_0_r.
    destruct (i =? -1)%Z; cbn [fst snd t_zero t_pos t_rot]; [now rewrite qinv_one | reflexivity].
Qed.

(** A cylinder is drawn along the wrong axis: a rod of length 4 does not reach its own end. *)
Theorem C78_mujoco_cylinder_refuted :
  exists g m p, (exists r l, g_shape g = Cylinder r l) /\ xml_geom (fun v => v) g = Ok m /\
    occupied t_zero g p /\ ~ mj_drawn (mj_body [t_zero] 0) m p.
Proof.
  exists (mkGeom 1 t_zero (Cylinder 1 4)). eexists. exists (V3 2 0 0). split; [repeat eexists|]. split; [reflexivity|]. split.
  - exists (V3 2 0 0). split.
    + cbn. rewrite Rabs_pos_eq by lra. split; lra.
    + cbn [g_transform]. now rewrite !to_world_zero.
  - intros (p0 & [H1 H2] & E). cbn in H1, H2. unfold mj_place, mj_body in E. cbn in E.
    destruct p0 as [a b c]. vunfold. injection E as E1 E2 E3. nra.
Qed.
(** In general it is drawn with the first and the last coordinate of its own frame exchanged. *)
Theorem C78_mujoco_rod rnd xs i g m r l : exact rnd g -> xml_geom rnd g = Ok m ->
  g_shape g = Cylinder r l \/ g_shape g = Capsule r l ->
  forall p, mj_drawn (mj_body xs i) m p <->
    exists a b c, solid (g_shape g) (V3 a b c) /\ p = to_world (pose_of xs i) (to_world (g_transform g) (V3 c b a)).
Proof.
  intros X H S p.
  assert (D : forall a b c, mj_solid (mj_prim_of m) (V3 c b a) <-> solid (g_shape g) (V3 a b c)).
  { intros a b c. unfold xml_geom in H. apply bind_Ok in H. destruct H as (pr & Hp & H). injection H as <-. cbn [mj_prim_of].
    pose proof (exact_size rnd g) as Z. destruct S as [S|S]; rewrite S in *; cbn in Hp; injection Hp as <-;
      cbn [sizes] in Z; cbn [mj_solid solid vx vy vz].
    - rewrite !Z by (auto; cbn; tauto). split; intros [A B]; (split; [exact A | lra]).
    - rewrite !Z by (auto; cbn; tauto). unfold near.
      split; intros (u & Hu & N); exists u; (split; [exact Hu|]); unfold dist2 in *; vunfold; lra. }
  split.
  - intros ([c b a] & H1 & H2). exists a, b, c. split; [now apply D|]. rewrite H2. now apply (C78_mujoco_placed rnd).
  - intros (a & b & c & H1 & H2). exists (V3 c b a). split; [now apply D|]. rewrite H2. symmetry. now apply (C78_mujoco_placed rnd).
Qed.

(** ** vispy *)

Theorem C78_vispy_placed xs i g p : qunit (t_rot g) -> qunit (t_rot (pose_of xs i)) ->
  vp_apply (vp_transform xs g i) p = to_world (pose_of xs i) (to_world g p).
Proof.
  intros U1 U2. rewrite <- to_world_mul. unfold vp_apply, vp_transform. fold (pose_of xs i). cbn [fst snd]. cbv zeta.
  set (t := t_mul g (pose_of xs i)).
  assert (U : qunit (t_rot t)) by now apply t_mul_unit. unfold to_world. rewrite vadd_comm. f_equal.
  rewrite <- rotate_3x3 by now apply qunit_inv. rewrite <- quat_to_3x3_inv by exact U.
  destruct (quat_to_3x3 (t_rot t)) as [[a b c] [d e f] [k l m]]. vring.
Qed.

Lemma vispy_drawn xs i g v s p : qunit (t_rot (g_transform g)) -> qunit (t_rot (pose_of xs i)) ->
  (forall p0, vp_solid v p0 <-> solid s p0) ->
  vp_drawn (vp_transform xs (g_transform g) i) v p <-> occupied (pose_of xs i) (mkGeom (g_mass g) (g_transform g) s) p.
Proof.
  intros U1 U2 D. unfold vp_drawn, occupied. cbn [g_shape g_transform].
  split; intros (p0 & H1 & H2); exists p0; (split; [now apply D|]); rewrite H2.
  - now apply C78_vispy_placed.
  - symmetry. now apply C78_vispy_placed.
Qed.

(** Spheres and cylinders, and boxes with a square side across x, are drawn exactly where they are. *)
Theorem C78_vispy xs i g v : qunit (t_rot (g_transform g)) -> qunit (t_rot (pose_of xs i)) ->
  vp_visual (g_shape g) = Ok v ->
  (exists r, g_shape g = Sphere r) \/ (exists r l, g_shape g = Cylinder r l) \/ (exists x y, g_shape g = Box x y y) ->
  forall p, vp_drawn (vp_transform xs (g_transform g) i) v p <-> occupied (pose_of xs i) g p.
Proof.
  intros U1 U2 H S p. replace (occupied (pose_of xs i) g p) with (occupied (pose_of xs i) (mkGeom (g_mass g) (g_transform g) (g_shape g)) p)
    by now destruct g.
  apply vispy_drawn; [assumption|assumption|]. intros p0.
  destruct S as [(r & S)|[(r & l & S)|(x & y & S)]]; rewrite S in *; cbn in H; injection H as <-; cbn; reflexivity.
Qed.

(** Every box is drawn with its second and third dimension exchanged. *)
Theorem C78_vispy_box xs i g x y z : qunit (t_rot (g_transform g)) -> qunit (t_rot (pose_of xs i)) ->
  g_shape g = Box x y z ->
  exists v, vp_visual (g_shape g) = Ok v /\
    forall p, vp_drawn (vp_transform xs (g_transform g) i) v p <->
              occupied (pose_of xs i) (mkGeom (g_mass g) (g_transform g) (Box x z y)) p.
Proof.
  intros U1 U2 S. rewrite S. eexists. split; [reflexivity|]. intros p. apply vispy_drawn; [assumption|assumption|]. reflexivity.
Qed.
Theorem C78_vispy_box_refuted :
  exists g v p, (exists x y z, g_shape g = Box x y z) /\ vp_visual (g_shape g) = Ok v /\
    occupied t_zero g p /\ ~ vp_drawn (vp_transform [t_zero] (g_transform g) 0) v p.
Proof.
  exists (mkGeom 1 t_zero (Box 1 4 1)). eexists. exists (V3 0 2 0). split; [repeat eexists|]. split; [reflexivity|]. split.
  - exists (V3 0 2 0). split.
    + cbn. rewrite Rabs_R0, (Rabs_pos_eq 2) by lra. lra.
    + cbn [g_transform]. now rewrite !to_world_zero.
  - intros D. assert (U : qunit (t_rot t_zero)) by (vunfold; unfold qunit; vunfold; ring).
    destruct (C78_vispy_box [t_zero] 0 (mkGeom 1 t_zero (Box 1 4 1)) 1 4 1 U U eq_refl) as (v & Hv & X).
    cbn in Hv. injection Hv as <-. apply X in D. destruct D as (p0 & (_ & H & _) & E).
    unfold to_world, pose_of in E. destruct p0 as [a b c]. cbn in H. cbn in E. vunfold. injection E as E1 E2 E3.
    assert (b = 2) by lra. subst b. rewrite Rabs_pos_eq in H by lra. lra.
Qed.

(** A capsule shorter than its own diameter cannot be drawn; any other is drawn shorter by that diameter than the
    inertia of the same geometry says. *)
Theorem C78_vispy_capsule xs i g r l : qunit (t_rot (g_transform g)) -> qunit (t_rot (pose_of xs i)) ->
  g_shape g = Capsule r l ->
  (l < 2 * r -> vp_visual (g_shape g) = Err EValue) /\
  (2 * r <= l -> exists v, vp_visual (g_shape g) = Ok v /\
     forall p, vp_drawn (vp_transform xs (g_transform g) i) v p <->
               occupied (pose_of xs i) (mkGeom (g_mass g) (g_transform g) (Capsule r (l - 2 * r))) p).
Proof.
  intros U1 U2 S. rewrite S. cbn [vp_visual]. unfold capsule_cyl_length. split; intros L.
  - destruct (Rlt_dec l (2 * r)); [reflexivity | lra].
  - destruct (Rlt_dec l (2 * r)); [lra|]. eexists. split; [reflexivity|]. intros p.
    apply vispy_drawn; [assumption|assumption|]. reflexivity.
Qed.
Theorem C78_capsule_refuted :
  exists g m v p, (exists r l, g_shape g = Capsule r l) /\ xml_geom (fun v => v) g = Ok m /\ vp_visual (g_shape g) = Ok v /\
    occupied t_zero g p /\ ~ mj_drawn (mj_body [t_zero] 0) m p /\ ~ vp_drawn (vp_transform [t_zero] (g_transform g) 0) v p.
Proof.
  set (g := mkGeom 1 t_zero (Capsule 1 4)).
  assert (U : qunit (t_rot t_zero)) by (unfold qunit; vunfold; ring).
  destruct (C78_vispy_capsule [t_zero] 0 g 1 4 U U eq_refl) as [_ X]. destruct X as (v & Hv & X); [lra|].
  exists g. eexists. exists v, (V3 3 0 0). split; [repeat eexists|]. split; [reflexivity|]. split; [exact Hv|].
  assert (T : forall p, to_world t_zero (to_world t_zero p) = p) by (intros [a b c]; unfold to_world; vunfold; f_equal; ring).
  split; [|split].
  - exists (V3 3 0 0). split; [|unfold g; cbn [g_transform]; now rewrite T].
    exists 1. split; [lra|]. unfold dist2. vunfold. lra.
  - intros (p0 & (u & Hu & N) & E). unfold mj_place, mj_body in E. cbn in E.
    destruct p0 as [a b c]. unfold dist2 in N. vunfold. injection E as E1 E2 E3. nra.
  - intros D. apply X in D. destruct D as (p0 & (u & Hu & N) & E). unfold g, pose_of in E. cbn [g_transform] in E.
    change (if (0 =? -1)%Z then t_zero else nth (Z.to_nat 0) [t_zero] t_zero) with t_zero in E. rewrite T in E. subst p0.
    unfold dist2 in N. vunfold. nra.
Qed.

(** ** A concrete case: a box on the second link, which is turned by half a turn about z and moved. *)
Definition ex_xs : list transform := [t_zero; Tr (V3 1 2 3) (Q4 0 0 0 1)].
Definition ex_box : geometry := mkGeom 1 (Tr (V3 0 0 (1 / 2)) qone) (Box 2 4 6).
Lemma ex_pose : pose_of ex_xs 1 = Tr (V3 1 2 3) (Q4 0 0 0 1).
Proof. reflexivity. Qed.
Example C78_mujoco_nonvacuous : exists m,
  exact (fun v => v) ex_box /\ xml_geom (fun v => v) ex_box = Ok m /\ qunit (t_rot (g_transform ex_box)) /\ qunit (t_rot (pose_of ex_xs 1)) /\ mj_drawn (mj_body ex_xs 1) m (V3 2 0 (13 / 2)) /\ ~ mj_drawn (mj_body ex_xs 1) m (V3 (21 / 10) 0 0).
Proof.
  eexists. split; [intros v _; reflexivity|]. split; [reflexivity|]. split; [unfold qunit; cbn; vunfold; ring|].
  split; [rewrite ex_pose; unfold qunit; vunfold; ring|].
  assert (X := C78_mujoco (fun v => v) ex_xs 1 ex_box _ (fun _ _ => eq_refl) eq_refl (or_introl (ex_intro _ 2 (ex_intro _ 4 (ex_intro _ 6 eq_refl))))).
  split.
  - apply X. exists (V3 (-1) 2 3). split.
    + cbn. rewrite (Rabs_left (-1)), !Rabs_pos_eq by lra. lra.
    + rewrite ex_pose. unfold to_world, ex_box. cbn [g_transform]. vunfold. f_equal; field.
  - intros H. apply X in H. destruct H as ([a b c] & (H & _ & _) & E).
    change (V3 (21 / 10) 0 0 = to_world (Tr (V3 1 2 3) (Q4 0 0 0 1)) (to_world (g_transform ex_box) (V3 a b c))) in E.
    unfold to_world, ex_box in E. cbn [g_transform] in E. cbn in H. vunfold.
    injection E as E1 E2 E3. assert (a = - (11 / 10)) by lra. subst a. rewrite Rabs_Ropp, Rabs_pos_eq in H by lra. lra.
Qed.
Example C78_axes_nonvacuous : occupied (pose_of ex_xs 1) (mkGeom 0 t_zero (XYZ 7)) (V3 1 (-5) 3).
Proof.
  exists (V3 0 7 0). split.
  - exists y_unit. split; [cbn; auto|]. exists 1. split; [lra|]. unfold dist2. vunfold. lra.
  - cbn [g_transform]. rewrite to_world_zero, ex_pose. unfold to_world. vunfold. f_equal; ring.
Qed.
