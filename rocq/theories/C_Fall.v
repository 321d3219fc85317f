(** * C90: how a free body falls. *)
From Coq Require Import Reals Lra String ZArith Lia Bool List.
From Verif Require Import Prelude M_Sys S_Sys P_Scan P_Run M_Math P_Math M_Geom P_Geom M_Joint M_Kin M_Dyn S_Kin P_Joint P_Kin P_Mat S_Dyn P_Dyn P_Mass P_Rnea
  C_Kin C_State C_Mass C_Rnea P_Step C_Spring C_Step P_Spd C_Fwd P_Motion S_Fall.
Import ListNotations.
Local Open Scope R_scope.
Notation W := builtin_widths.
Notation jt := (@builtin_table unit).

Definition posed_body (t1 : transform) (it : inertia) (g : vec3) (dt : R) (t t2 : transform) : System R (plink (params unit)) geometry unit :=
  mkSys [-1]%Z [mkPL t1 vzero vzero [("default"%string, tt)] it t2 t] ["free"]%string (zeros 6) (zeros 6) (zeros 6) [1; 0; 0; 0; 0; 0; 0] dt [] [vx g; vy g; vz g]
    "semi_implicit_euler" 0 ["body"]%string None [tt].
Lemma motion6 a0 a1 a2 a3 a4 a5 : motion_sum [Sp (V3 1 0 0) (V3 0 0 0); Sp (V3 0 1 0) (V3 0 0 0); Sp (V3 0 0 1) (V3 0 0 0);
  Sp (V3 0 0 0) (V3 1 0 0); Sp (V3 0 0 0) (V3 0 1 0); Sp (V3 0 0 0) (V3 0 0 1)] [a0; a1; a2; a3; a4; a5] = Sp (V3 a0 a1 a2) (V3 a3 a4 a5).
Proof. unfold motion_sum. cbn [length seq fold_left nth getR]. unfold getR. cbn [nth]. unfold sadd, sscale, szero, vadd, vscale, vzero. cbn [ang vel vx vy vz]. do 2 f_equal; ring. Qed.
Lemma comps f : [m_dot (Sp (V3 1 0 0) (V3 0 0 0)) f; m_dot (Sp (V3 0 1 0) (V3 0 0 0)) f; m_dot (Sp (V3 0 0 1) (V3 0 0 0)) f;
   m_dot (Sp (V3 0 0 0) (V3 1 0 0)) f; m_dot (Sp (V3 0 0 0) (V3 0 1 0)) f; m_dot (Sp (V3 0 0 0) (V3 0 0 1)) f] =
  [vx (ang f); vy (ang f); vz (ang f); vx (vel f); vy (vel f); vz (vel f)].
Proof. unfold m_dot, dot. cbn [ang vel vx vy vz]. repeat (apply f_equal2; [ring|]). reflexivity. Qed.
Lemma glide i3 m v : m_cross_star (Sp (V3 0 0 0) v) (i_mul (In3 i3 (V3 0 0 0) m) (Sp (V3 0 0 0) v)) = szero.
Proof. destruct v. vring. Qed.
Lemma body_id t1 i3 m g dt t t2 v0 v1 v2 a0 a1 a2 a3 a4 a5 :
  inverse_dynamics W jt (posed_body t1 (In3 i3 vzero m) g dt t t2) [0; 0; 0; v0; v1; v2] [a0; a1; a2; a3; a4; a5] =
  let f := i_mul (In3 i3 vzero m) (Sp (V3 a0 a1 a2) (vadd (rotate g (t_rot t)) (V3 a3 a4 a5))) in
  Ok [vx (ang f); vy (ang f); vz (ang f); vx (vel f); vy (vel f); vz (vel f)].
Proof.
  unfold inverse_dynamics. destruct g as [gx gy gz]. cbv zeta. rewrite <- comps.
  cbv -[Rplus Rmult Ropp Rinv IZR Rminus Rdiv t_motion t_rot i_mul m_dot sadd m_cross m_cross_star motion_sum rotate vadd].
  rewrite !motion6. rewrite !glide, sadd_0_r.
  assert (E : sadd (t_motion t (Sp (V3 0 0 0) (V3 gx gy gz))) (Sp (V3 a0 a1 a2) (V3 a3 a4 a5)) = Sp (V3 a0 a1 a2) (vadd (rotate (V3 gx gy gz) (t_rot t)) (V3 a3 a4 a5))).
  { change (V3 0 0 0) with vzero. rewrite motion_shift. unfold sadd. cbn [ang vel]. f_equal. unfold vadd, vzero. cbn [vx vy vz]. f_equal; ring. }
  rewrite E. reflexivity.
Qed.
Lemma free_fk t1 it g dt t t2 r p : forward_kinematics_transforms W jt (posed_body t1 it g dt t t2) (free_coords r p) =
  Ok ([t_mul (t_mul (Tr p r) t1) t_zero], posed_body t1 it g dt (t_mul (Tr p r) t1) (Tr p r)).
Proof. destruct g, p, r. reflexivity. Qed.
Lemma body_wf t1 it g dt t t2 : wf W (posed_body t1 it g dt t t2).
Proof.
  constructor; try reflexivity.
  - cbn [posed_body link_names]. repeat constructor. cbn [In]. tauto.
  - unfold posed_body, topo. cbn [link_parents]. intros [|[|i]] p H; cbn in H; try discriminate. injection H as <-. lia.
  - constructor.
  - exists [7]%nat, [6]%nat. repeat split; repeat constructor.
Qed.
Lemma body_known t1 it g dt t t2 : joints_known jt (posed_body t1 it g dt t t2).
Proof. intros [|[|i]] typ l A B; cbn in A, B; try discriminate. injection A as <-. injection B as <-. split; [eexists; reflexivity|exists tt; right; split; reflexivity]. Qed.
Lemma tensor_split i3 m a v : energy2 (In3 i3 vzero m) (Sp a v) = dot a (mvmul i3 a) + m * dot v v.
Proof. unfold energy2. vring. Qed.
Lemma i_mul_split i3 m a v : i_mul (In3 i3 vzero m) (Sp a v) = Sp (mvmul i3 a) (vscale m v).
Proof. vring. Qed.
Lemma eps_pos : 0 < / 10 ^ 6.
Proof. apply Rinv_0_lt_compat, pow_lt. lra. Qed.
Lemma linear m e a g : m + e <> 0 -> m * (g + a) = - (e * a) -> a = - (m / (m + e)) * g.
Proof. intros N H. apply (Rmult_eq_reg_r (m + e)); [|exact N]. replace (- (m / (m + e)) * g * (m + e)) with (- (m * g)) by (field; exact N). lra. Qed.
Lemma body_fd solve t1 i3 m g dt t t2 q v : solves solve -> inertia_tensor i3 -> 0 < m -> 0 <= dt -> tunit t -> length q = 7%nat ->
  exists inv, forward_dynamics W jt solve (posed_body t1 (In3 i3 vzero m) g dt t t2) q (free_velocity v) (zeros 6) = Ok (free_velocity (falls m (rotate g (t_rot t))), inv).
Proof.
  intros SO [SY PS] M DT U Lq. pose proof eps_pos as EP.
  destruct (C61_equations_of_motion solve (posed_body t1 (In3 i3 vzero m) g dt t t2) 6 q (free_velocity v) (zeros 6) SO eq_refl (body_wf _ _ _ _ _ _) (body_known _ _ _ _ _ _))
    as (qdd & inv & f & id & A & B & C & D & E); try reflexivity; try (repeat constructor; lra).
  - intros l [<-|[]]. exact U.
  - intros l [<-|[]]. exact SY.
  - intros l [<-|[]] [a b]. cbn [pl_inertia]. rewrite tensor_split. specialize (PS a).
    assert (0 <= dot b b) by (unfold dot; pose proof (Rle_0_sqr (vx b)); pose proof (Rle_0_sqr (vy b)); pose proof (Rle_0_sqr (vz b)); unfold Rsqr in *; lra).
    pose proof (Rmult_le_pos m (dot b b)). lra.
  - exact DT.
  - discriminate.
  - rewrite Lq. reflexivity.
  - destruct qdd as [|a0 [|a1 [|a2 [|a3 [|a4 [|a5 [|]]]]]]]; try discriminate. exists inv. rewrite A. unfold free_velocity in D. rewrite body_id in D.
    cbv zeta in D. rewrite i_mul_split in D. assert (DI : forall x y : list R, Ok x = Ok y -> x = y) by congruence. apply DI in D. subst id. clear DI. do 2 f_equal.
    pose proof (E 0%nat ltac:(lia)) as E0. pose proof (E 1%nat ltac:(lia)) as E1. pose proof (E 2%nat ltac:(lia)) as E2.
    pose proof (E 3%nat ltac:(lia)) as E3. pose proof (E 4%nat ltac:(lia)) as E4. pose proof (E 5%nat ltac:(lia)) as E5. pose proof (PS (V3 a0 a1 a2)) as P. clear E A C PS SY.
    cbn [posed_body link_armature link_spring_stiffness link_damping sys_dt] in E0, E1, E2, E3, E4, E5.
    unfold getR, zeros, free_velocity in E0, E1, E2, E3, E4, E5. cbn [nth repeat ang vel] in E0, E1, E2, E3, E4, E5.
    set (gb := rotate g (t_rot t)) in *. clearbody gb.
    unfold vadd, vscale in E3, E4, E5. cbn [ang vel vx vy vz] in E0, E1, E2, E3, E4, E5, P.
    unfold dot in P at 1. cbn [vx vy vz] in P.
    set (u := mvmul i3 (V3 a0 a1 a2)) in *. clearbody u.
    assert (F0 : vx u = - (/ 10 ^ 6 * a0)) by (revert E0; generalize (/ 10 ^ 6); intros; lra).
    assert (F1 : vy u = - (/ 10 ^ 6 * a1)) by (revert E1; generalize (/ 10 ^ 6); intros; lra).
    assert (F2 : vz u = - (/ 10 ^ 6 * a2)) by (revert E2; generalize (/ 10 ^ 6); intros; lra).
    rewrite F0, F1, F2 in P.
    assert (Z : a0 * a0 + a1 * a1 + a2 * a2 <= 0).
    { apply (Rmult_le_reg_l (/ 10 ^ 6)); [exact EP|]. revert P. clear. generalize (/ 10 ^ 6). intros. lra. }
    pose proof (Rle_0_sqr a0) as Q0. pose proof (Rle_0_sqr a1) as Q1. pose proof (Rle_0_sqr a2) as Q2. unfold Rsqr in Q0, Q1, Q2.
    assert (Z0 : a0 = 0) by (apply Rsqr_0_uniq; unfold Rsqr; lra). assert (Z1 : a1 = 0) by (apply Rsqr_0_uniq; unfold Rsqr; lra).
    assert (Z2 : a2 = 0) by (apply Rsqr_0_uniq; unfold Rsqr; lra).
    subst a0 a1 a2. unfold free_velocity, falls, vscale. cbn [vx vy vz].
    assert (N : m + / 10 ^ 6 <> 0) by (intro; lra).
    assert (G3 : a3 = - (m / (m + / 10 ^ 6)) * vx gb) by (apply linear; [exact N|]; revert E3; clear; generalize (/ 10 ^ 6); intros; lra).
    assert (G4 : a4 = - (m / (m + / 10 ^ 6)) * vy gb) by (apply linear; [exact N|]; revert E4; clear; generalize (/ 10 ^ 6); intros; lra).
    assert (G5 : a5 = - (m / (m + / 10 ^ 6)) * vz gb) by (apply linear; [exact N|]; revert E5; clear; generalize (/ 10 ^ 6); intros; lra).
    rewrite <- G3, <- G4, <- G5. reflexivity.
Qed.

Lemma glide_next v a dt : ladd (free_velocity v) (lscale dt (free_velocity a)) = free_velocity (vadd v (vscale dt a)).
Proof. unfold free_velocity, ladd, lscale, vadd, vscale. cbn [map zipw vx vy vz]. repeat (apply f_equal2; [ring|]). reflexivity. Qed.
Lemma body_euler solve t1 i3 m g dt t t2 r p v x : solves solve -> inertia_tensor i3 -> 0 < m -> 0 <= dt <= 10 ^ 8 -> tunit t -> qunit r ->
  let v' := vadd v (vscale dt (falls m (rotate g (t_rot t)))) in
  semi_implicit_euler W jt solve (posed_body t1 (In3 i3 vzero m) g dt t t2) (mkState (free_coords r p) (free_velocity v) x) (zeros 6) =
  Ok (mkState (free_coords r (vadd p (vscale dt v'))) (free_velocity v') x).
Proof.
  intros SO IT M DT U Q v'. destruct (body_fd solve t1 i3 m g dt t t2 (free_coords r p) v SO IT M (proj1 DT) U eq_refl) as (inv & F).
  unfold semi_implicit_euler. cbn [st_q st_qd st_x]. rewrite F. cbn [bind fst]. change (sys_dt (posed_body t1 (In3 i3 vzero m) g dt t t2)) with dt. rewrite glide_next. fold v'. clearbody v'.
  match goal with |- (do r2 <- ?X; _) = _ => assert (E : X = Ok ([tt], [integrate_link dt "free" (free_coords r p) (free_velocity v')])) by reflexivity end.
  rewrite E. cbn [bind snd concatenate]. 
  assert (K : integrate_link dt "free" (free_coords r p) (free_velocity v') = free_coords r (vadd p (vscale dt v'))).
  { unfold integrate_link. cbn [is_free_or_cor String.eqb Ascii.eqb Bool.eqb orb]. cbn [free_coords free_velocity firstn skipn].
    change (v3_of [0; 0; 0]) with vzero. replace (q4_of [qw r; qx r; qy r; qz r]) with r by (destruct r; reflexivity).
    rewrite strapdown_rest; [reflexivity|exact Q|]. apply Rabs_le. lra. }
  rewrite K. reflexivity.
Qed.
Lemma dropped_next p v a h k : dropped (vadd p (vscale h (vadd v (vscale h a)))) (vadd v (vscale h a)) a h k = dropped p v a h (S k).
Proof. unfold dropped. rewrite S_INR. generalize (INR k). intros n. unfold vadd, vscale. cbn [vx vy vz]. f_equal; field. Qed.
Lemma faster_next v a h k : vadd (vadd v (vscale h a)) (vscale (INR k * h) a) = vadd v (vscale (INR (S k) * h) a).
Proof. rewrite S_INR. generalize (INR k). intros n. unfold vadd, vscale. cbn [vx vy vz]. f_equal; ring. Qed.
Lemma body_substeps solve t1 i3 m g h r : solves solve -> inertia_tensor i3 -> 0 < m -> 0 <= h <= 10 ^ 8 -> tunit t1 -> qunit r ->
  let a := falls m (rotate g (qmul r (t_rot t1))) in
  forall k t t2 p v x, exists x', substeps W jt solve k (posed_body t1 (In3 i3 vzero m) g h t t2) (mkState (free_coords r p) (free_velocity v) x) (zeros 6) =
    Ok (mkState (free_coords r (dropped p v a h k)) (free_velocity (vadd v (vscale (INR k * h) a))) x').
Proof.
  intros SO IT M H U Q a. induction k as [|k IH]; intros t t2 p v x; cbn [substeps].
  - exists x. unfold dropped. cbn [INR]. do 2 f_equal.
    + f_equal. unfold vadd, vscale. destruct p as [p0 p1 p2]. cbn [vx vy vz]. f_equal; field.
    + f_equal. unfold vadd, vscale. destruct v as [v0 v1 v2]. cbn [vx vy vz]. f_equal; ring.
  - unfold forward_kinematics. cbn [st_q st_qd]. rewrite free_fk. cbn [bind fst snd].
    assert (UT : tunit (t_mul (Tr p r) t1)) by (apply tunit_mul; [exact Q|exact U]).
    rewrite (body_euler solve t1 i3 m g h _ (Tr p r) r p v _ SO IT M H UT Q). cbn [bind].
    change (t_rot (t_mul (Tr p r) t1)) with (qmul r (t_rot t1)). fold a.
    destruct (IH (t_mul (Tr p r) t1) (Tr p r) (vadd p (vscale h (vadd v (vscale h a)))) (vadd v (vscale h a)) [t_mul (t_mul (Tr p r) t1) t_zero]) as (x' & E).
    exists x'. rewrite E, dropped_next, faster_next. reflexivity.
Qed.

(** A body on a free joint that is thrown without spin keeps its orientation and is accelerated, whatever its inertia
    tensor, its position and its mass, by gravity as seen in the frame of the body; the simulated path is the parabola
    of the semi-implicit Euler rule. *)
Theorem C90_free_fall solve offset i3 m g dt r p v x n : solves solve -> inertia_tensor i3 -> 0 < m -> tunit offset -> qunit r ->
  (0 < n)%nat -> 0 <= dt <= 10 ^ 8 ->
  let a := falls m (rotate g (qmul r (t_rot offset))) in
  exists x', step W jt solve (free_body offset i3 m g dt) (mkState (free_coords r p) (free_velocity v) x) None n =
    Ok (mkState (free_coords r (dropped p v a (dt / INR n) n)) (free_velocity (vadd v (vscale dt a))) x').
Proof.
  intros SO IT M U Q N DT a. unfold step. cbn [st_q st_qd]. change (q_size W (free_body offset i3 m g dt)) with (@Ok nat 7%nat). change (qd_size W (free_body offset i3 m g dt)) with (@Ok nat 6%nat).
  cbn [bind free_coords free_velocity length Nat.eqb assert_ andb]. change (zeros (S (S (S (S (S (S 0))))))) with (zeros 6).
  cbn [free_body integration_method]. change (String.eqb (lower "semi_implicit_euler") "semi_implicit_euler") with true. cbn [assert_ bind].
  change (zeros 6) with [0; 0; 0; 0; 0; 0]. cbn [length Nat.eqb andb assert_ bind].
  destruct n as [|n']; [lia|]. cbn [Nat.eqb]. set (n := S n') in *. assert (NP : 0 < INR n) by (apply lt_0_INR; lia). assert (N1 : 1 <= INR n) by (apply (le_INR 1); lia).
  assert (H : 0 <= dt / INR n <= 10 ^ 8).
  { split; [apply Rmult_le_pos; [lra|left; now apply Rinv_0_lt_compat]|]. apply (Rmult_le_reg_r (INR n)); [exact NP|]. unfold Rdiv. rewrite Rmult_assoc, Rinv_l by lra.
    apply (Rle_trans _ (10 ^ 8 * 1)); [lra|]. apply Rmult_le_compat_l; [apply pow_le|]; lra. }
  destruct (body_substeps solve offset i3 m g (dt / INR n) r SO IT M H U Q n t_zero t_zero p v x) as (x' & E). fold a in E.
  exists x'. replace (INR n * (dt / INR n)) with dt in E by (field; lra). exact E.
Qed.

Lemma free_pose offset i3 m g dt r p : exists s', forward_kinematics_transforms W jt (free_body offset i3 m g dt) (free_coords r p) = Ok ([t_mul (Tr p r) offset], s').
Proof. exists (posed_body offset (In3 i3 vzero m) g dt (t_mul (Tr p r) offset) (Tr p r)). pose proof (free_fk offset (In3 i3 vzero m) g dt t_zero t_zero r p) as E. rewrite t_mul_0_r in E. exact E. Qed.
Lemma dropped_world o p v a h n q : vadd o (rotate (dropped p v a h n) q) = dropped (vadd o (rotate p q)) (rotate v q) (rotate a q) h n.
Proof. unfold dropped. rewrite !rotate_add, !rotate_scale. generalize (INR n * h) (INR n * (INR n + 1) / 2 * (h * h)). intros. unfold vadd, vscale. cbn [vx vy vz]. f_equal; ring. Qed.
Lemma falls_world m g q : rotate (falls m g) q = falls m (rotate g q).
Proof. unfold falls. apply rotate_scale. Qed.
(** Seen in the world: the forward kinematics of the state before and after the step give the same orientation, and
    the body has moved as if gravity had been turned by the rotation of the joint.  If that rotation does not change
    gravity (an upright body, or one turned about the vertical), the body falls along gravity. *)
Theorem C90_world solve offset i3 m g dt r p v x n : solves solve -> inertia_tensor i3 -> 0 < m -> tunit offset -> qunit r ->
  (0 < n)%nat -> 0 <= dt <= 10 ^ 8 ->
  let s := free_body offset i3 m g dt in
  exists st' before s1 after s2, step W jt solve s (mkState (free_coords r p) (free_velocity v) x) None n = Ok st' /\
    forward_kinematics_transforms W jt s (free_coords r p) = Ok ([before], s1) /\ forward_kinematics_transforms W jt s (st_q st') = Ok ([after], s2) /\
    t_rot after = t_rot before /\
    let o := qinv (t_rot offset) in
    t_pos after = dropped (t_pos before) (rotate v o) (falls m (rotate (rotate (rotate g (t_rot offset)) r) o)) (dt / INR n) n.
Proof.
  intros SO IT M U Q N DT s. destruct (C90_free_fall solve offset i3 m g dt r p v x n SO IT M U Q N DT) as (x' & E). fold s in E.
  destruct (free_pose offset i3 m g dt r p) as (s1 & F1).
  match type of E with _ = Ok (mkState (free_coords r ?p') _ _) => destruct (free_pose offset i3 m g dt r p') as (s2 & F2) end.
  do 5 eexists. split; [exact E|]. split; [exact F1|]. split; [exact F2|]. split; [reflexivity|].
  cbv zeta. unfold t_mul. cbn [t_pos t_rot]. rewrite dropped_world, falls_world, rotate_mul. reflexivity.
Qed.
Theorem C90_upright solve offset i3 m g dt r p v x n : solves solve -> inertia_tensor i3 -> 0 < m -> tunit offset -> qunit r ->
  (0 < n)%nat -> 0 <= dt <= 10 ^ 8 -> rotate (rotate g (t_rot offset)) r = rotate g (t_rot offset) ->
  let s := free_body offset i3 m g dt in
  exists st' before s1 after s2, step W jt solve s (mkState (free_coords r p) (free_velocity v) x) None n = Ok st' /\
    forward_kinematics_transforms W jt s (free_coords r p) = Ok ([before], s1) /\ forward_kinematics_transforms W jt s (st_q st') = Ok ([after], s2) /\
    t_rot after = t_rot before /\
    t_pos after = dropped (t_pos before) (rotate v (qinv (t_rot offset))) (falls m g) (dt / INR n) n.
Proof.
  intros SO IT M U Q N DT F s. destruct (C90_world solve offset i3 m g dt r p v x n SO IT M U Q N DT) as (st' & b & s1 & a & s2 & A & B & C & D & E).
  exists st', b, s1, a, s2. cbv zeta in E. rewrite F, rotate_inv_l in E by exact U. auto 6.
Qed.
(** It is not true that a body that is let go falls: the code adds the velocity of the body, expressed in its own frame,
    to the position, expressed in the frame of the parent.  A sphere that is turned upside down rises. *)
Lemma sphere_tensor : inertia_tensor (M3 (V3 1 0 0) (V3 0 1 0) (V3 0 0 1)).
Proof. split; [reflexivity|]. intros [a b c]. vunfold. pose proof (Rle_0_sqr a). pose proof (Rle_0_sqr b). pose proof (Rle_0_sqr c). unfold Rsqr in *. lra. Qed.
Lemma rises m dt : 0 < m -> 0 < dt -> 0 < vz (dropped vzero vzero (falls m (V3 0 0 (-981 / 100))) dt 1).
Proof.
  intros M D. unfold dropped, falls, vadd, vscale, vzero. cbn [vx vy vz INR]. pose proof eps_pos as P. revert P. generalize (/ 10 ^ 6). intros e P.
  assert (0 < m / (m + e)) by (apply Rmult_lt_0_compat; [exact M|apply Rinv_0_lt_compat; lra]).
  assert (0 < dt * dt) by (apply Rmult_lt_0_compat; exact D).
  replace (0 + (1 * dt * 0 + 1 * (1 + 1) / 2 * (dt * dt) * (- (m / (m + e)) * (-981 / 100)))) with ((m / (m + e)) * (dt * dt) * (981 / 100)) by (field; lra).
  apply Rmult_lt_0_compat; [apply Rmult_lt_0_compat; assumption|lra].
Qed.
Theorem C90_falls_down_refuted : exists i3 m dt r, inertia_tensor i3 /\ 0 < m /\ 0 < dt /\ qunit r /\
  exists st' before s1 after s2, let s := free_body t_zero i3 m (V3 0 0 (981 / 100)) dt in
    step W jt solve_gauss s (mkState (free_coords r vzero) (zeros 6) []) None 1 = Ok st' /\
    forward_kinematics_transforms W jt s (free_coords r vzero) = Ok ([before], s1) /\ forward_kinematics_transforms W jt s (st_q st') = Ok ([after], s2) /\
    vz (t_pos before) < vz (t_pos after).
Proof.
  exists (M3 (V3 1 0 0) (V3 0 1 0) (V3 0 0 1)), 1, (1 / 100), (Q4 0 1 0 0).
  assert (Q : qunit (Q4 0 1 0 0)) by (unfold qunit; vunfold; ring).
  assert (D : 0 <= 1 / 100 <= 10 ^ 8) by (split; [lra|]; apply (Rle_trans _ 1); [lra|]; apply pow_R1_Rle; lra).
  split; [apply sphere_tensor|]. split; [lra|]. split; [lra|]. split; [exact Q|].
  destruct (C90_world solve_gauss t_zero (M3 (V3 1 0 0) (V3 0 1 0) (V3 0 0 1)) 1 (V3 0 0 (981 / 100)) (1 / 100) (Q4 0 1 0 0) vzero vzero [] 1
    solve_gauss_solves sphere_tensor ltac:(lra) (qunit_one) Q ltac:(lia) D) as (st' & b & s1 & a & s2 & A & B & C & _ & E).
  exists st', b, s1, a, s2. cbv zeta. split; [exact A|]. split; [exact B|]. split; [exact C|].
  destruct (free_pose t_zero (M3 (V3 1 0 0) (V3 0 1 0) (V3 0 0 1)) 1 (V3 0 0 (981 / 100)) (1 / 100) (Q4 0 1 0 0) vzero) as (s3 & F). rewrite F in B. injection B as <- _.
  assert (B0 : t_pos (t_mul (Tr vzero (Q4 0 1 0 0)) t_zero) = vzero) by (rewrite t_mul_0_r; reflexivity). rewrite B0 in *. cbv zeta in E. rewrite E.
  assert (G : rotate (rotate (rotate (V3 0 0 (981 / 100)) (t_rot t_zero)) (Q4 0 1 0 0)) (qinv (t_rot t_zero)) = V3 0 0 (-981 / 100)).
  { generalize (eq_refl (-981 / 100)). intros _. unfold Rdiv. replace (-981 * / 100) with (- (981 * / 100)) by ring. generalize (981 * / 100). clear. intros c. unfold t_zero. cbn [t_rot]. vring. }
  rewrite G, rotate_zero. replace (1 / 100 / INR 1) with (1 / 100) by (cbn [INR]; field). apply (rises 1 (1 / 100)); lra.
Qed.
Example C90_example : exists st', step W jt solve_gauss (free_body t_zero (M3 (V3 1 0 0) (V3 0 1 0) (V3 0 0 1)) 1 (V3 0 0 (981 / 100)) (1 / 100))
    (mkState (free_coords qone (V3 0 0 2)) (free_velocity (V3 1 0 0)) []) None 4 = Ok st' /\
  st_q st' = free_coords qone (dropped (V3 0 0 2) (V3 1 0 0) (falls 1 (V3 0 0 (981 / 100))) (1 / 100 / INR 4) 4).
Proof.
  assert (D : 0 <= 1 / 100 <= 10 ^ 8) by (split; [lra|]; apply (Rle_trans _ 1); [lra|]; apply pow_R1_Rle; lra).
  destruct (C90_free_fall solve_gauss t_zero (M3 (V3 1 0 0) (V3 0 1 0) (V3 0 0 1)) 1 (V3 0 0 (981 / 100)) (1 / 100) qone (V3 0 0 2) (V3 1 0 0) [] 4
    solve_gauss_solves sphere_tensor ltac:(lra) qunit_one qunit_one ltac:(lia) D) as (x' & E).
  eexists. split; [exact E|]. cbn [st_q]. unfold t_zero. cbn [t_rot]. replace (qmul qone qone) with qone by (clear; vring). rewrite rotate_one. reflexivity.
Qed.
Print Assumptions C90_free_fall.
Print Assumptions C90_world.
Print Assumptions C90_upright.
Print Assumptions C90_falls_down_refuted.
Print Assumptions C90_example.
