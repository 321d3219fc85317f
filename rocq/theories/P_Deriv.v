(** * Derivatives of poses: rotations, hinges, chains of two hinges and the integrator. *)
From Coq Require Import Reals Lra String ZArith Lia Bool List Nsatz.
From Verif Require Import Prelude M_Sys S_Sys M_Math P_Math P_Trig P_Rot M_Geom M_Joint S_Kin P_Joint M_Dyn S_Deriv.
Import ListNotations.
Local Open Scope R_scope.

(** ** Real functions *)
Notation D f t d := (derivable_pt_lim f t d).
Lemma D_const (c t : R) : D (fun _ => c) t 0. Proof. apply derivable_pt_lim_const. Qed.
Lemma D_plus f g t a b : D f t a -> D g t b -> D (fun s => f s + g s) t (a + b).
Proof. exact (derivable_pt_lim_plus f g t a b). Qed.
Lemma D_minus f g t a b : D f t a -> D g t b -> D (fun s => f s - g s) t (a - b).
Proof. exact (derivable_pt_lim_minus f g t a b). Qed.
Lemma D_opp f t a : D f t a -> D (fun s => - f s) t (- a).
Proof. exact (derivable_pt_lim_opp f t a). Qed.
Lemma D_mult f g t a b : D f t a -> D g t b -> D (fun s => f s * g s) t (a * g t + f t * b).
Proof. exact (derivable_pt_lim_mult f g t a b). Qed.
Lemma D_scal c f t a : D f t a -> D (fun s => c * f s) t (c * a).
Proof. exact (derivable_pt_lim_scal f c t a). Qed.
Lemma D_cos f t a : D f t a -> D (fun s => cos (f s)) t (- sin (f t) * a).
Proof. intros H. exact (derivable_pt_lim_comp f cos t a _ H (derivable_pt_lim_cos (f t))). Qed.
Lemma D_sin f t a : D f t a -> D (fun s => sin (f s)) t (cos (f t) * a).
Proof. intros H. exact (derivable_pt_lim_comp f sin t a _ H (derivable_pt_lim_sin (f t))). Qed.
Lemma D_ext f g t a : (forall s, f s = g s) -> D f t a -> D g t a.
Proof. intros E H e He. destruct (H e He) as [d Hd]. exists d. intros h. rewrite <- !E. apply Hd. Qed.
Lemma D_eq f t a b : a = b -> D f t a -> D f t b. Proof. now intros ->. Qed.
Lemma D_id t : D (fun s => s) t 1. Proof. apply derivable_pt_lim_id. Qed.
Ltac dpoly := repeat first [eassumption | apply D_const | eapply D_plus | eapply D_minus | eapply D_opp | eapply D_mult].

Lemma v3_eta v : V3 (vx v) (vy v) (vz v) = v. Proof. now destruct v. Qed.
Lemma q4_eta q : Q4 (qw q) (qx q) (qy q) (qz q) = q. Proof. now destruct q. Qed.

Lemma vlim_ext f g t d : (forall s, f s = g s) -> vlim f t d -> vlim g t d.
Proof. intros E (A & B & C). repeat split; eapply D_ext; eauto; intros; cbn beta; now rewrite E. Qed.
Lemma qlim_ext f g t d : (forall s, f s = g s) -> qlim f t d -> qlim g t d.
Proof. intros E (A & B & C & F). repeat split; eapply D_ext; eauto; intros; cbn beta; now rewrite E. Qed.
Lemma vlim_const v t : vlim (fun _ => v) t vzero. Proof. repeat split; apply D_const. Qed.
Lemma qlim_const q t : qlim (fun _ => q) t (Q4 0 0 0 0). Proof. repeat split; apply D_const. Qed.
Lemma vlim_add f g t a b : vlim f t a -> vlim g t b -> vlim (fun s => vadd (f s) (g s)) t (vadd a b).
Proof. intros (? & ? & ?) (? & ? & ?). repeat split; cbn [vadd vx vy vz]; eapply D_plus; auto. Qed.
Lemma vlim_unique f t a b : vlim f t a -> vlim f t b -> a = b.
Proof.
  intros (A1 & A2 & A3) (B1 & B2 & B3). destruct a as [x1 x2 x3], b as [y1 y2 y3]. cbn [vx vy vz] in *.
  f_equal; eapply uniqueness_limite; eassumption.
Qed.

(** ** Products and rotations *)
Lemma qmul_lim f g t a b : qlim f t a -> qlim g t b ->
  qlim (fun s => qmul (f s) (g s)) t (Q4 (qw (qmul a (g t)) + qw (qmul (f t) b)) (qx (qmul a (g t)) + qx (qmul (f t) b))
                                        (qy (qmul a (g t)) + qy (qmul (f t) b)) (qz (qmul a (g t)) + qz (qmul (f t) b))).
Proof.
  intros (A1 & A2 & A3 & A4) (B1 & B2 & B3 & B4). unfold qlim, qmul. cbn [qw qx qy qz].
  split; [|split; [|split]]; (eapply D_eq; [|dpoly]; cbn beta; ring).
Qed.
(** A quaternion that turns with [w] turns vectors accordingly; no unit norm needed. *)
Lemma rotate_lim f r t u' w : vlim f t u' -> qlim r t (spin w (r t)) ->
  vlim (fun s => rotate (f s) (r s)) t (vsub (rotate u' (r t)) (cross w (rotate (f t) (r t)))).
Proof.
  intros (A1 & A2 & A3) (B1 & B2 & B3 & B4).
  remember (spin w (r t)) as b eqn:Eb. destruct b as [b0 b1 b2 b3]. cbn [qw qx qy qz] in *.
  destruct u' as [u1 u2 u3], w as [w1 w2 w3]. cbn [vx vy vz] in *.
  unfold vlim, rotate, rotate_quat, qmul, qinv, qvec. cbn [qw qx qy qz vx vy vz].
  unfold spin, qscale, qmul in Eb. cbn [qw qx qy qz vx vy vz] in Eb. injection Eb as E0 E1 E2 E3.
  split; [|split]; (eapply D_eq; [|dpoly]; cbn beta; unfold vsub, vadd, vneg, cross; cbn [vx vy vz]; subst; field).
Qed.

(** ** Poses *)
Lemma pose_moves p r t p' w : vlim p t p' -> qlim r t (spin w (r t)) ->
  moves_with (fun s => Tr (p s) (r s)) t (Sp w (rotate p' (r t))).
Proof.
  intros Hp Hr u. unfold seen_from. cbn [t_pos t_rot ang vel].
  assert (H : vlim (fun s => vsub u (p s)) t (vneg p')).
  { destruct Hp as (A & B & C). unfold vlim, vsub, vadd, vneg. cbn [vx vy vz].
    repeat split; (eapply D_eq; [|eapply D_plus; [apply D_const|eapply D_opp; eassumption]]; ring). }
  pose proof (rotate_lim _ _ _ _ _ H Hr) as G.
  replace (vneg (vadd (rotate p' (r t)) (cross w (rotate (vsub u (p t)) (r t)))))
    with (vsub (rotate (vneg p') (r t)) (cross w (rotate (vsub u (p t)) (r t)))); [exact G|].
  rewrite rotate_neg. generalize (rotate p' (r t)), (cross w (rotate (vsub u (p t)) (r t))). vring.
Qed.
Lemma moves_ext x y t m : (forall s, x s = y s) -> moves_with x t m -> moves_with y t m.
Proof. intros E H u. rewrite <- E. eapply vlim_ext; [|apply H]. intros s. cbn beta. now rewrite E. Qed.

(** The velocity is determined by the motion. *)
Lemma moves_unique x t m m' : qunit (t_rot (x t)) -> moves_with x t m -> moves_with x t m' -> m = m'.
Proof.
  intros U H H'.
  assert (E : forall v, vadd (vel m) (cross (ang m) v) = vadd (vel m') (cross (ang m') v)).
  { intros v. specialize (H (vadd (rotate v (qinv (t_rot (x t)))) (t_pos (x t)))). specialize (H' (vadd (rotate v (qinv (t_rot (x t)))) (t_pos (x t)))).
    pose proof (vlim_unique _ _ _ _ H H') as G. unfold seen_from in G.
    replace (vsub (vadd (rotate v (qinv (t_rot (x t)))) (t_pos (x t))) (t_pos (x t))) with (rotate v (qinv (t_rot (x t)))) in G
      by (generalize (rotate v (qinv (t_rot (x t)))), (t_pos (x t)); vring).
    rewrite rotate_inv_r in G by auto. revert G. generalize (vadd (vel m) (cross (ang m) v)), (vadd (vel m') (cross (ang m') v)).
    intros [a b c] [a' b' c'] G. unfold vneg in G. cbn [vx vy vz] in G. injection G as G1 G2 G3. f_equal; lra. }
  pose proof (E vzero) as E0. pose proof (E x_unit) as Ex. pose proof (E y_unit) as Ey.
  destruct m as [[a b c] [d e f]], m' as [[a' b' c'] [d' e' f']]. vunfold.
  injection E0 as E1 E2 E3. injection Ex as X1 X2 X3. injection Ey as Y1 Y2 Y3. f_equal; f_equal; lra.
Qed.

(** ** Hinges *)
Lemma hinge_lim k a t a' : dot k k = 1 -> D a t a' ->
  qlim (fun s => quat_rot_axis k (a s)) t (spin (vscale a' k) (quat_rot_axis k (a t))).
Proof.
  intros U H. eapply qlim_ext; [intros s; symmetry; apply rot_axis_unit; auto|]. rewrite rot_axis_unit by auto.
  assert (Dh : D (fun s => - a s / 2) t (- a' / 2)).
  { eapply D_ext; [|eapply D_eq; [|apply (D_scal (- / 2)); exact H]]; [intros; cbn beta; field|field]. }
  unfold qlim, rot, spin, qscale, qmul. cbn [qw qx qy qz].
  destruct k as [k1 k2 k3]. unfold dot in U. cbn [vx vy vz vscale] in *.
  split; [|split; [|split]].
  - eapply D_eq; [|apply D_cos; exact Dh]. cbn beta.
    transitivity (sin (- a t / 2) * a' / 2 * (k1 * k1 + k2 * k2 + k3 * k3)); [rewrite U; field|field].
  - eapply D_eq; [|eapply D_mult; [apply D_sin; exact Dh|apply D_const]]. cbn beta. field.
  - eapply D_eq; [|eapply D_mult; [apply D_sin; exact Dh|apply D_const]]. cbn beta. field.
  - eapply D_eq; [|eapply D_mult; [apply D_sin; exact Dh|apply D_const]]. cbn beta. field.
Qed.
(** Two rotations one after the other: the first is seen through the second. *)
Lemma chain_lim r1 r2 t w1 w2 : qunit (r2 t) -> qlim r1 t (spin w1 (r1 t)) -> qlim r2 t (spin w2 (r2 t)) ->
  qlim (fun s => qmul (r2 s) (r1 s)) t (spin (vadd w2 (rotate w1 (r2 t))) (qmul (r2 t) (r1 t))).
Proof.
  intros U H1 H2. pose proof (qmul_lim _ _ _ _ _ H2 H1) as G.
  enough (E : spin (vadd w2 (rotate w1 (r2 t))) (qmul (r2 t) (r1 t)) =
    Q4 (qw (qmul (spin w2 (r2 t)) (r1 t)) + qw (qmul (r2 t) (spin w1 (r1 t)))) (qx (qmul (spin w2 (r2 t)) (r1 t)) + qx (qmul (r2 t) (spin w1 (r1 t))))
       (qy (qmul (spin w2 (r2 t)) (r1 t)) + qy (qmul (r2 t) (spin w1 (r1 t)))) (qz (qmul (spin w2 (r2 t)) (r1 t)) + qz (qmul (r2 t) (spin w1 (r1 t))))).
  { now rewrite E. }
  revert U. generalize (r2 t), (r1 t). intros p q U.
  assert (X : qmul (Q4 0 (vx (rotate w1 p)) (vy (rotate w1 p)) (vz (rotate w1 p))) p = qmul p (Q4 0 (vx w1) (vy w1) (vz w1))).
  { destruct p as [a b c d], w1 as [x y z]. unfold qunit in U. vunfold. f_equal; nsatz. }
  transitivity (let m := qmul (qmul (Q4 0 (vx w2) (vy w2) (vz w2)) p) q in let n := qmul (qmul (Q4 0 (vx (rotate w1 p)) (vy (rotate w1 p)) (vz (rotate w1 p))) p) q in
     Q4 (- / 2 * (qw m + qw n)) (- / 2 * (qx m + qx n)) (- / 2 * (qy m + qy n)) (- / 2 * (qz m + qz n))).
  - unfold spin. generalize (rotate w1 p). intros v. destruct v, w2, p, q. cbv zeta. vunfold. f_equal; ring.
  - rewrite X. unfold spin. cbv zeta. destruct w1, w2, p, q. vunfold. f_equal; ring.
Qed.

Lemma inv_lim r t w : qunit (r t) -> qlim r t (spin w (r t)) ->
  qlim (fun s => qinv (r s)) t (spin (vneg (rotate w (qinv (r t)))) (qinv (r t))).
Proof.
  intros U (A & B & C & E).
  enough (X : spin (vneg (rotate w (qinv (r t)))) (qinv (r t)) = qinv (spin w (r t))).
  { rewrite X. unfold qlim, qinv. cbn [qw qx qy qz]. repeat split; [exact A| | |]; apply D_opp; assumption. }
  revert U. generalize (r t). intros q U. destruct q as [a b c d], w as [x y z]. unfold qunit in U. unfold spin. vunfold.
  f_equal; nsatz.
Qed.

(** Both hinges at once. *)
Lemma hinges_move k1 k2 a b t a' b' : dot k1 k1 = 1 -> dot k2 k2 = 1 -> D a t a' -> D b t b' ->
  moves_with (fun s => t_of_rot (qmul (quat_rot_axis k2 (b s)) (quat_rot_axis k1 (a s)))) t
    (Sp (vadd (vscale b' k2) (vscale a' (rotate k1 (quat_rot_axis k2 (b t))))) vzero).
Proof.
  intros U1 U2 H1 H2. pose proof (hinge_lim _ _ _ _ U1 H1) as G1. pose proof (hinge_lim _ _ _ _ U2 H2) as G2.
  pose proof (chain_lim (fun s => quat_rot_axis k1 (a s)) (fun s => quat_rot_axis k2 (b s)) t _ _ (qunit_rot_axis k2 (b t) U2) G1 G2) as G. cbn beta in G.
  pose proof (pose_moves (fun _ => vzero) _ t vzero _ (vlim_const vzero t) G) as M. cbn beta in M.
  rewrite rotate_zero, rotate_scale in M. exact M.
Qed.
Lemma rotate_perp k1 k2 b : dot k1 k1 = 1 -> dot k2 k2 = 1 -> dot k1 k2 = 0 ->
  (rotate k1 (quat_rot_axis k2 b) = k1 <-> cos b = 1).
Proof.
  intros U1 U2 O. rewrite rot_axis_unit, rotate_rot by auto. replace (2 * (- b / 2)) with (- b) by field. rewrite cos_neg, sin_neg.
  assert (O' : dot k2 k1 = 0) by (revert O; destruct k1, k2; vunfold; lra). rewrite O'.
  split; intros H.
  - apply (f_equal (fun v => dot v k1)) in H. rewrite U1 in H. revert H.
    replace (dot (vadd (vadd (vscale (cos b) k1) (vscale (- sin b) (cross k2 k1))) (vscale ((1 - cos b) * 0) k2)) k1)
      with (cos b * dot k1 k1) by vring. rewrite U1. lra.
  - assert (S0 : sin b = 0). { pose proof (sin2_cos2 b) as X. unfold Rsqr in X. rewrite H in X. nra. }
    rewrite H, S0. destruct k1, k2; vunfold; f_equal; ring.
Qed.
Lemma vscale_inj a v w : vscale a v = vscale a w -> a = 0 \/ v = w.
Proof.
  intros H. destruct (Req_dec a 0); [auto|right]. destruct v as [x y z], w as [x' y' z']. unfold vscale in H. cbn [vx vy vz] in H.
  injection H as A B C. f_equal; eapply Rmult_eq_reg_l; eauto.
Qed.
Lemma hinges_iff k1 k2 a b t a' b' : dot k1 k1 = 1 -> dot k2 k2 = 1 -> D a t a' -> D b t b' ->
  (moves_with (fun s => t_of_rot (qmul (quat_rot_axis k2 (b s)) (quat_rot_axis k1 (a s)))) t
    (Sp (vadd (vscale a' k1) (vscale b' k2)) vzero) <-> a' = 0 \/ rotate k1 (quat_rot_axis k2 (b t)) = k1).
Proof.
  intros U1 U2 H1 H2. pose proof (hinges_move _ _ _ _ _ _ _ U1 U2 H1 H2) as M. split; intros H.
  - assert (V := qunit_mul _ _ (qunit_rot_axis k2 (b t) U2) (qunit_rot_axis k1 (a t) U1)).
    assert (E := fun u => moves_unique _ _ _ _ u H M). cbn beta in E. specialize (E V).
    apply (f_equal ang) in E. cbn [ang] in E. apply vscale_inj.
    revert E. generalize (rotate k1 (quat_rot_axis k2 (b t))). intros v E. destruct k1, k2, v. vunfold. injection E as A B C. f_equal; lra.
  - replace (vadd (vscale a' k1) (vscale b' k2)) with (vadd (vscale b' k2) (vscale a' (rotate k1 (quat_rot_axis k2 (b t))))); [exact M|].
    destruct H as [->| ->]; [|vring]. generalize (rotate k1 (quat_rot_axis k2 (b t))). intros v. destruct k1, k2, v. vunfold. f_equal; ring.
Qed.

(** ** Strapdown integration *)
Lemma D_local f g t a (e : R) : 0 < e -> (forall s, Rabs (s - t) < e -> f s = g s) -> D f t a -> D g t a.
Proof.
  intros He E H x Hx. destruct (H x Hx) as [d Hd].
  assert (M : 0 < Rmin d e) by (apply Rmin_glb_lt; [apply cond_pos|exact He]). exists (mkposreal _ M). cbn [pos].
  intros h Hh Lh. rewrite <- !E.
  - apply Hd; [exact Hh|]. eapply Rlt_le_trans; [exact Lh|apply Rmin_l].
  - rewrite Rminus_eq_0, Rabs_R0. exact He.
  - replace (t + h - t) with h by ring. eapply Rlt_le_trans; [exact Lh|apply Rmin_r].
Qed.
Lemma eps_pos : 0 < / 10 ^ 8. Proof. apply Rinv_0_lt_compat, pow_lt; lra. Qed.

(** The angular velocity the integrator really applies. *)
Definition applied_rate (w : vec3) : vec3 :=
  if vclose0_dec (vscale (/ (vnorm w + / 10 ^ 8)) w) then vzero else vscale (1 + / 10 ^ 8 / vnorm w) w.

Lemma far_norm w : ~ vclose0 (vscale (/ (vnorm w + / 10 ^ 8)) w) -> 0 < vnorm w.
Proof.
  intros H. destruct (Rlt_le_dec 0 (vnorm w)) as [G|G]; auto. exfalso. apply H. pose proof (vnorm_nonneg w) as N.
  assert (Z : vnorm w = 0) by lra. pose proof (vnorm_sq w) as Q. rewrite Z in Q.
  assert (w = vzero) as ->.
  { destruct w as [x y z]. vunfold. assert (x * x = 0 /\ y * y = 0 /\ z * z = 0) as (A & B & C) by (repeat split; nra).
    apply Rmult_integral in A, B, C. f_equal; tauto. }
  unfold vclose0, vscale, vzero. cbn [vx vy vz]. rewrite Rmult_0_r. unfold close0. rewrite Rabs_R0. unfold atol.
  pose proof eps_pos. repeat split; lra.
Qed.
Lemma applied_close w : vnorm (vsub (applied_rate w) w) <= / 10 ^ 8.
Proof.
  unfold applied_rate. pose proof eps_pos as EP. destruct (vclose0_dec _) as [C|C].
  - replace (vsub vzero w) with (vscale (-1) w) by vring. rewrite vnorm_scale.
    replace (Rabs (-1)) with 1 by (rewrite Rabs_left; lra). rewrite Rmult_1_l.
    pose proof (vnorm_nonneg w) as N. set (n := vnorm w) in *. set (m := n + / 10 ^ 8) in *. assert (M : 0 < m) by (unfold m; lra).
    destruct C as (C1 & C2 & C3). unfold close0, atol in *. cbn [vscale vx vy vz] in *.
    assert (B : forall x, Rabs (/ m * x) <= / 10 ^ 8 -> x * x <= (m * / 10 ^ 8) * (m * / 10 ^ 8)).
    { intros x H. rewrite Rabs_mult, (Rabs_pos_eq (/ m)) in H by (left; now apply Rinv_0_lt_compat).
      assert (G : Rabs x <= m * / 10 ^ 8). { apply (Rmult_le_compat_l m) in H; [|lra]. rewrite <- Rmult_assoc, Rinv_r, Rmult_1_l in H by lra. exact H. }
      replace (x * x) with (Rabs x * Rabs x) by (rewrite <- Rabs_mult; apply Rabs_pos_eq; nra).
      pose proof (Rabs_pos x). nra. }
    apply B in C1, C2, C3. pose proof (vnorm_sq w) as Q. fold n in Q. unfold dot in Q.
    assert (T : n * n <= 3 * ((m * / 10 ^ 8) * (m * / 10 ^ 8))) by lra.
    assert (T2 : n <= 2 * (m * / 10 ^ 8)). { assert (0 < m * / 10 ^ 8) by nra. nra. }
    unfold m in T2. assert (/ 10 ^ 8 <= / 100). { apply Rinv_le_contravar; lra. } nra.
  - assert (N := far_norm _ C). replace (vsub (vscale (1 + / 10 ^ 8 / vnorm w) w) w) with (vscale (/ 10 ^ 8 / vnorm w) w) by (destruct w; vunfold; f_equal; ring).
    rewrite vnorm_scale, Rabs_pos_eq by (apply Rlt_le, Rdiv_lt_0_compat; lra). right. field. lra.
Qed.
Lemma applied_zero : applied_rate vzero = vzero.
Proof. unfold applied_rate. destruct (vclose0_dec _); [reflexivity|]. vring. Qed.

Lemma qscale_1 q : qscale 1 q = q. Proof. vring. Qed.
Lemma strapdown_lim q w : qunit q -> strapdown q w 0 = q /\ qlim (fun dt => strapdown q w dt) 0 (spin (applied_rate w) q).
Proof.
  intros U. unfold strapdown. cbv zeta. pose proof eps_pos as EP. pose proof (vnorm_nonneg w) as N0. unfold applied_rate.
  set (n := vnorm w + / 10 ^ 8). set (a := vscale (/ n) w). assert (Hn : 0 < n) by (unfold n; lra).
  destruct (vclose0_dec a) as [C|C].
  - assert (R1 : forall x, quat_rot_axis a x = Q4 (cos (- x / 2)) 0 0 0).
    { intros x. unfold quat_rot_axis, safe_normalize. destruct (vclose0_dec a) as [_|C']; [|now elim C'].
      cbv zeta. vunfold. f_equal; ring. }
    assert (R2 : forall x, 0 < cos (- x / 2) -> qscale (/ sqrt (qnorm2 (qmul (quat_rot_axis a x) q))) (qmul (quat_rot_axis a x) q) = q).
    { intros x H. rewrite R1. set (c := cos (- x / 2)) in *. replace (qmul (Q4 c 0 0 0) q) with (qscale c q) by vring.
      replace (qnorm2 (qscale c q)) with (Rsqr c * qnorm2 q) by (unfold Rsqr; vring). unfold qunit in U. rewrite U, Rmult_1_r, sqrt_Rsqr by lra.
      replace (qscale (/ c) (qscale c q)) with (qscale (/ c * c) q) by vring. rewrite Rinv_l by lra. apply qscale_1. }
    split.
    + apply R2. replace (- (n * 0) / 2) with 0 by field. rewrite cos_0. lra.
    + assert (L : forall (pr : quat -> R) d, d = 0 -> D (fun dt => pr (qscale (/ sqrt (qnorm2 (qmul (quat_rot_axis a (n * dt)) q))) (qmul (quat_rot_axis a (n * dt)) q))) 0 d).
      { intros pr d ->. apply (D_local (fun _ => pr q) _ _ _ (/ n)); [now apply Rinv_0_lt_compat| |apply D_const].
        intros s Hs. rewrite R2; [reflexivity|]. rewrite Rminus_0_r in Hs. apply cos_gt_0.
        - assert (n * Rabs s < 1). { apply (Rmult_lt_compat_l n) in Hs; auto. rewrite Rinv_r in Hs by lra. exact Hs. }
          pose proof (Rle_abs s). pose proof (Rle_abs (- s)). rewrite Rabs_Ropp in *. pose proof PI2_1. nra.
        - assert (n * Rabs s < 1). { apply (Rmult_lt_compat_l n) in Hs; auto. rewrite Rinv_r in Hs by lra. exact Hs. }
          pose proof (Rle_abs s). pose proof (Rle_abs (- s)). rewrite Rabs_Ropp in *. pose proof PI2_1. nra. }
      unfold qlim. assert (Z : spin vzero q = Q4 0 0 0 0) by (unfold spin; vring). rewrite Z. cbn [qw qx qy qz].
      split; [|split; [|split]]; exact (L _ _ eq_refl).
  - set (k := safe_normalize a). assert (K : dot k k = 1) by now apply safe_normalize_unit.
    assert (Nw : 0 < vnorm w) by exact (far_norm _ C).
    assert (R1 : forall x, quat_rot_axis a x = quat_rot_axis k x).
    { intros x. unfold quat_rot_axis. fold k. now rewrite (safe_normalize_unit_id k). }
    assert (R2 : forall x, qscale (/ sqrt (qnorm2 (qmul (quat_rot_axis a x) q))) (qmul (quat_rot_axis a x) q) = qmul (quat_rot_axis k x) q).
    { intros x. rewrite R1. pose proof (qunit_mul _ _ (qunit_rot_axis k x K) U) as V. unfold qunit in V. rewrite V, sqrt_1, Rinv_1. apply qscale_1. }
    assert (Z : quat_rot_axis k (n * 0) = qone).
    { rewrite rot_axis_unit by auto. replace (- (n * 0) / 2) with 0 by field. apply rot_0. }
    assert (Q1 : qmul qone q = q) by vring.
    split; [rewrite R2, Z; exact Q1|].
    eapply qlim_ext; [intros s; symmetry; apply R2|].
    assert (Dn : D (fun s => n * s) 0 n). { eapply D_eq; [|apply D_scal, D_id]. ring. }
    pose proof (hinge_lim k _ 0 n K Dn) as G. cbn beta in G.
    assert (G0 : qlim (fun _ => q) 0 (spin vzero q)). { replace (spin vzero q) with (Q4 0 0 0 0) by (unfold spin; vring). apply qlim_const. }
    pose proof (chain_lim (fun _ => q) (fun s => quat_rot_axis k (n * s)) 0 _ _ (qunit_rot_axis k _ K) G0 G) as F. cbn beta in F.
    rewrite Z, Q1, rotate_zero in F.
    replace (vscale (1 + / 10 ^ 8 / vnorm w) w) with (vadd (vscale n k) vzero); [exact F|].
    unfold k, safe_normalize. destruct (vclose0_dec a) as [C'|_]; [now elim C|]. unfold a at 2.
    assert (E : vnorm a = / n * vnorm w). { unfold a. rewrite vnorm_scale, Rabs_pos_eq; auto. left. now apply Rinv_0_lt_compat. }
    rewrite E. unfold n. revert Nw. generalize (vnorm w). intros v Hv. clear -Hv EP. destruct w as [x y z].
    set (e := / 10 ^ 8) in *. clearbody e. vunfold. f_equal; field; split; lra.
Qed.
