(** * Derivatives of motions of a tree of bodies. *)
From Coq Require Import Reals Lra String ZArith Lia Bool List.
From Verif Require Import Prelude M_Sys M_Math P_Math M_Geom P_Geom M_Joint M_Dyn P_Mat S_Dyn P_Dyn S_Deriv P_Deriv S_Work.
Import ListNotations.
Local Open Scope R_scope.

Ltac vl := repeat match goal with H : vlim _ _ _ |- _ => destruct H as (? & ? & ?) end; unfold vlim, vsub, vadd, vneg, vscale, cross; cbn [vx vy vz];
  split; [|split]; (eapply D_eq; [|dpoly]; cbn beta; try ring).
Lemma vlim_sub f g t a b : vlim f t a -> vlim g t b -> vlim (fun s => vsub (f s) (g s)) t (vsub a b).
Proof. intros. vl. Qed.
Lemma vlim_neg f t a : vlim f t a -> vlim (fun s => vneg (f s)) t (vneg a).
Proof. intros. vl. Qed.
Lemma vlim_scale c f t c' a : D c t c' -> vlim f t a -> vlim (fun s => vscale (c s) (f s)) t (vadd (vscale c' (f t)) (vscale (c t) a)).
Proof. intros. vl. Qed.
Lemma vlim_cross f g t a b : vlim f t a -> vlim g t b -> vlim (fun s => cross (f s) (g s)) t (vadd (cross a (g t)) (cross (f t) b)).
Proof. intros. vl. Qed.
Lemma D_dot f g t a b : vlim f t a -> vlim g t b -> D (fun s => dot (f s) (g s)) t (dot a (g t) + dot (f t) b).
Proof. intros (? & ? & ?) (? & ? & ?). unfold dot. eapply D_eq; [|dpoly]. cbn beta. ring. Qed.
Lemma vlim_eq f t a b : a = b -> vlim f t a -> vlim f t b. Proof. now intros ->. Qed.
Lemma rotate_parts v q : rotate v q = vadd (vscale (vx v) (rotate x_unit q)) (vadd (vscale (vy v) (rotate y_unit q)) (vscale (vz v) (rotate z_unit q))).
Proof. rewrite <- !rotate_scale, <- !rotate_add. f_equal. destruct v. vring. Qed.

Section One.
Variable x : R -> transform.
Notation r s := (t_rot (x s)).
Notation p s := (t_pos (x s)).

Lemma seen_diff u s : vsub (seen_from (x s) u) (seen_from (x s) vzero) = rotate u (r s).
Proof. unfold seen_from. rewrite <- rotate_sub. f_equal. generalize (p s). clear. vring. Qed.
Lemma fixed_lim t m (M : moves_with x t m) e : vlim (fun s => rotate e (r s)) t (vneg (cross (ang m) (rotate e (r t)))).
Proof.
  eapply vlim_ext; [intros s; apply seen_diff|]. eapply vlim_eq; [|apply vlim_sub; apply M].
  rewrite <- (seen_diff e t). generalize (seen_from (x t) e), (seen_from (x t) vzero). clear. vring.
Qed.
Lemma turn_lim t m (M : moves_with x t m) f f' : vlim f t f' -> vlim (fun s => rotate (f s) (r s)) t (vsub (rotate f' (r t)) (cross (ang m) (rotate (f t) (r t)))).
Proof.
  intros F. eapply vlim_ext; [intros s; symmetry; apply rotate_parts|].
  pose proof (fixed_lim t m M x_unit) as X. pose proof (fixed_lim t m M y_unit) as Y. pose proof (fixed_lim t m M z_unit) as Z. destruct F as (F1 & F2 & F3).
  eapply vlim_eq; [|apply vlim_add; [apply vlim_scale; [exact F1|exact X]|apply vlim_add; [apply vlim_scale; [exact F2|exact Y]|apply vlim_scale; [exact F3|exact Z]]]].
  cbn beta. rewrite (rotate_parts f'), (rotate_parts (f t)). generalize (rotate x_unit (r t)), (rotate y_unit (r t)), (rotate z_unit (r t)).
  generalize f', (f t). clear. vring.
Qed.
(** The origin, seen from the moving frame *)
Lemma origin_lim t m (M : moves_with x t m) : vlim (fun s => rotate (p s) (r s)) t (vsub (vel m) (cross (ang m) (rotate (p t) (r t)))).
Proof.
  assert (E : forall s, vneg (seen_from (x s) vzero) = rotate (p s) (r s)).
  { intros s. unfold seen_from. rewrite <- rotate_neg. f_equal. generalize (p s). clear. vring. }
  eapply vlim_ext; [exact E|]. eapply vlim_eq; [|apply vlim_neg, M]. rewrite <- E. generalize (seen_from (x t) vzero). clear. vring.
Qed.
Lemma seen_lim t m (M : moves_with x t m) f f' : vlim f t f' -> vlim (fun s => seen_from (x s) (f s)) t (vsub (rotate f' (r t)) (vadd (vel m) (cross (ang m) (seen_from (x t) (f t))))).
Proof.
  intros F. assert (E : forall u s, vsub (rotate u (r s)) (rotate (p s) (r s)) = seen_from (x s) u) by (intros; unfold seen_from; now rewrite rotate_sub).
  eapply vlim_ext; [intros s; apply E|]. eapply vlim_eq; [|apply vlim_sub; [apply (turn_lim t m M); exact F|apply (origin_lim t m M)]].
  rewrite <- E. generalize (rotate f' (r t)), (rotate (f t) (r t)), (rotate (p t) (r t)). clear. vring.
Qed.
Hypothesis U : forall s, tunit (x s).
Lemma motion_parts s u : t_motion (x s) u = Sp (rotate (ang u) (r s)) (vsub (rotate (vel u) (r s)) (cross (rotate (p s) (r s)) (rotate (ang u) (r s)))).
Proof.
  unfold t_motion. f_equal. rewrite rotate_cross by apply U. rewrite <- rotate_sub. f_equal. generalize (p s). clear. vring.
Qed.
Lemma motion_lim t m (M : moves_with x t m) u u' : slim u t u' -> slim (fun s => t_motion (x s) (u s)) t (sadd (t_motion (x t) u') (m_cross (t_motion (x t) (u t)) m)).
Proof.
  intros [A V]. pose proof (turn_lim t m M _ _ A) as A'. pose proof (turn_lim t m M _ _ V) as V'.
  split.
  - eapply vlim_ext; [intros s; symmetry; rewrite motion_parts; reflexivity|]. cbn beta. eapply vlim_eq; [|exact A']. rewrite !motion_parts. unfold sadd, m_cross. cbn [ang vel].
    generalize (rotate (ang u') (r t)), (rotate (ang (u t)) (r t)). clear. vring.
  - eapply vlim_ext; [intros s; symmetry; rewrite motion_parts; reflexivity|]. cbn beta.
    eapply vlim_eq; [|apply vlim_sub; [exact V'|apply vlim_cross; [apply (origin_lim t m M)|exact A']]]. rewrite !motion_parts. unfold sadd, m_cross. cbn [ang vel].
    generalize (rotate (ang u') (r t)), (rotate (ang (u t)) (r t)), (rotate (vel u') (r t)), (rotate (vel (u t)) (r t)), (rotate (p t) (r t)). clear. vring.
Qed.
(** Energy of the weight *)
Lemma weight_lim t m (M : moves_with x t m) it g : D (fun s => dot g (mass_moment it (x s))) t (m_dot m (i_mul it (Sp vzero (rotate g (r t))))).
Proof.
  assert (E : forall s, i_mass it * dot (rotate g (r s)) (rotate (p s) (r s)) + dot (rotate g (r s)) (i_h it) = dot g (mass_moment it (x s))).
  { intros s. unfold mass_moment. rewrite rotate_dot by apply U. rewrite rotate_adj. generalize (rotate (i_h it) (qinv (r s))), (p s). clear. vring. }
  eapply D_ext; [exact E|].
  pose proof (fixed_lim t m M g) as G. pose proof (origin_lim t m M) as Q.
  eapply D_eq; [|apply D_plus; [apply D_scal, D_dot; [exact G|exact Q]|apply D_dot; [exact G|apply vlim_const]]].
  cbv beta. generalize (rotate g (r t)), (rotate (p t) (r t)). clear. vring.
Qed.
End One.

Lemma seen_mul a b u : tunit b -> seen_from (t_mul a b) u = seen_from a (seen_from b u).
Proof.
  intros U. unfold seen_from. cbn [t_mul t_pos t_rot]. rewrite rotate_mul. f_equal.
  assert (E : rotate (t_pos a) qone = t_pos a) by apply rotate_one.
  rewrite <- (rotate_inv_r (t_pos a) (t_rot b) U) at 2. rewrite <- rotate_sub. f_equal. generalize (rotate (t_pos a) (qinv (t_rot b))), (t_pos b). clear. vring.
Qed.
Lemma compose_moves x y t m k : (forall s, tunit (x s)) -> (forall s, tunit (y s)) -> moves_with x t m -> moves_with y t k ->
  moves_with (fun s => t_mul (x s) (y s)) t (sadd m (t_motion (x t) k)).
Proof.
  intros U V M K u. eapply vlim_ext; [intros s; symmetry; apply seen_mul, V|]. eapply vlim_eq; [|apply (seen_lim x t m M); apply K].
  rewrite seen_mul by apply V. rewrite (motion_parts x U). set (w := seen_from (y t) u).
  assert (E : seen_from (x t) w = vsub (rotate w (t_rot (x t))) (rotate (t_pos (x t)) (t_rot (x t)))) by (unfold seen_from; apply rotate_sub).
  rewrite E, rotate_neg, rotate_add, <- rotate_cross by apply U.
  cbn [sadd ang vel]. generalize (rotate (vel k) (t_rot (x t))), (rotate (ang k) (t_rot (x t))), (rotate w (t_rot (x t))), (rotate (t_pos (x t)) (t_rot (x t))). clear. vring.
Qed.
Lemma zero_moves t : moves_with (fun _ => t_zero) t szero.
Proof. intros u. eapply vlim_eq; [|apply vlim_const]. unfold seen_from. cbn [t_zero t_pos t_rot]. rewrite rotate_one. vring. Qed.

Lemma slim_add f g t a b : slim f t a -> slim g t b -> slim (fun s => sadd (f s) (g s)) t (sadd a b).
Proof. intros [A B] [A' B']. split; cbn [sadd ang vel]; now apply vlim_add. Qed.
Lemma slim_eq f t a b : a = b -> slim f t a -> slim f t b. Proof. now intros ->. Qed.
Lemma slim_ext f g t a : (forall s, f s = g s) -> slim f t a -> slim g t a.
Proof. intros E [A B]. split; (eapply vlim_ext; [|eassumption]); intros; cbn beta; now rewrite E. Qed.
Lemma slim_const c t : slim (fun _ => c) t szero. Proof. split; apply vlim_const. Qed.
Lemma D_mdot f g t a b : slim f t a -> slim g t b -> D (fun s => m_dot (f s) (g s)) t (m_dot a (g t) + m_dot (f t) b).
Proof. intros [A B] [A' B']. unfold m_dot. eapply D_eq; [|apply D_plus; [apply D_dot; eassumption|apply D_dot; eassumption]]. cbn beta. ring. Qed.
Lemma slim_inertia it f t a : slim f t a -> slim (fun s => i_mul it (f s)) t (i_mul it a).
Proof.
  intros [(A1 & A2 & A3) (B1 & B2 & B3)]. unfold slim, vlim, i_mul, mvmul, vadd, vsub, vneg, vscale, cross, dot. cbn [ang vel vx vy vz i_3x3 i_h i_mass r1 r2 r3].
  repeat split; (eapply D_eq; [|dpoly]; cbn beta; try ring).
Qed.
Lemma m_cross_self a : m_cross a a = szero. Proof. vring. Qed.
Lemma D_sum n (f : R -> nat -> R) t d : (forall i, (i < n)%nat -> D (fun s => f s i) t (d i)) -> D (fun s => sumR n (f s)) t (sumR n d).
Proof. induction n as [|n IH]; intros H; cbn [sumR]; [apply D_const|]. apply D_plus; [apply IH; intros; apply H; lia|apply H; lia]. Qed.
Lemma motion_shift r w : t_motion r (Sp vzero w) = Sp vzero (rotate w (t_rot r)).
Proof. unfold t_motion. cbn [ang vel]. f_equal; [apply rotate_zero|]. f_equal. generalize (t_pos r). clear. vring. Qed.
Lemma acc_shuffle A B C E W : sadd (sadd (sadd A W) B) (m_cross (sadd C E) C) = sadd (sadd B (sadd A (m_cross E C))) W.
Proof. vring. Qed.
Lemma sadd_comm a b : sadd a b = sadd b a. Proof. vring. Qed.
Lemma gyro_idle u f : m_dot u (m_cross_star u f) = 0. Proof. vring. Qed.

Section Tree.
Variable n : nat.
Variable par : nat -> Z.
Variable X : R -> nat -> transform.
Variables J v : R -> nat -> spatial.
Variable x : R -> nat -> transform.
Variable g : vec3.
Hypothesis Hpar : forall i, (i < n)%nat -> (-1 <= par i < Z.of_nat i)%Z.
Hypothesis HX : forall s i, (i < n)%nat -> tunit (X s i).
Hypothesis Hx : forall s i, (i < n)%nat -> x s i = t_mul (X s i) (if (par i =? -1)%Z then t_zero else x s (Z.to_nat (par i))).
Hypothesis Hv : forall s, is_field n par (X s) (J s) (v s).

Lemma pose_unit s i : (i < n)%nat -> tunit (x s i).
Proof.
  induction i as [i IH] using lt_wf_ind. intros Hi. rewrite Hx by auto. apply tunit_mul; [now apply HX|]. pose proof (Hpar i Hi).
  destruct (Z.eqb_spec (par i) (-1)); [apply tunit_zero|]. apply IH; lia.
Qed.
Section At.
Variable t : R.
Hypothesis HM : forall i, (i < n)%nat -> moves_with (fun s => X s i) t (J t i).
Lemma tree_moves i : (i < n)%nat -> moves_with (fun s => x s i) t (v t i).
Proof.
  induction i as [i IH] using lt_wf_ind. intros Hi. pose proof (Hpar i Hi). rewrite (Hv t i Hi). unfold up.
  eapply moves_ext; [intros s; symmetry; now apply Hx|]. destruct (Z.eqb_spec (par i) (-1)).
  - rewrite <- (P_Dyn.t_motion_zero (X t i)). apply (compose_moves (fun s => X s i) (fun _ => t_zero)); [intros; now apply HX|intros; apply tunit_zero|now apply HM|apply zero_moves].
  - apply (compose_moves (fun s => X s i) (fun s => x s (Z.to_nat (par i)))); [intros; now apply HX|intros; apply pose_unit; lia|now apply HM|apply IH; lia].
Qed.
Variable J' a : nat -> spatial.
Hypothesis HJ : forall i, (i < n)%nat -> slim (fun s => J s i) t (J' i).
Hypothesis Ha : forall i, (i < n)%nat ->
  a i = sadd (sadd (t_motion (X t i) (if (par i =? -1)%Z then Sp vzero g else a (Z.to_nat (par i)))) (J' i)) (m_cross (v t i) (J t i)).
Lemma tree_acc i : (i < n)%nat -> exists d, slim (fun s => v s i) t d /\ a i = sadd d (Sp vzero (rotate g (t_rot (x t i)))).
Proof.
  induction i as [i IH] using lt_wf_ind. intros Hi. pose proof (Hpar i Hi) as PR. rewrite (Ha i Hi).
  destruct (Z.eqb_spec (par i) (-1)) as [E|E].
  - exists (J' i). assert (EV : forall s, v s i = J s i) by (intros s; rewrite (Hv s i Hi); unfold up; rewrite (proj2 (Z.eqb_eq _ _) E); apply sadd_0_r).
    split; [eapply slim_ext; [intros s; symmetry; apply EV|now apply HJ]|]. rewrite EV, m_cross_self, sadd_0_r, motion_shift, Hx by auto.
    rewrite (proj2 (Z.eqb_eq _ _) E). cbn [t_mul t_rot t_zero]. rewrite rotate_mul, rotate_one. apply sadd_comm.
  - set (k := Z.to_nat (par i)). assert (Hk : (k < i)%nat) by (unfold k; lia). destruct (IH k Hk ltac:(lia)) as (d & D1 & D2).
    assert (EV : forall s, v s i = sadd (J s i) (t_motion (X s i) (v s k))).
    { intros s. rewrite (Hv s i Hi). unfold up. destruct (Z.eqb_spec (par i) (-1)); [congruence|reflexivity]. }
    exists (sadd (J' i) (sadd (t_motion (X t i) d) (m_cross (t_motion (X t i) (v t k)) (J t i)))). split.
    + eapply slim_ext; [intros s; symmetry; apply EV|]. apply slim_add; [now apply HJ|].
      apply (motion_lim (fun s => X s i) (fun s => HX s i Hi) t (J t i) (HM i Hi)). exact D1.
    + fold k. rewrite D2, t_motion_add, EV. rewrite (Hx t i Hi). destruct (Z.eqb_spec (par i) (-1)) as [|_]; [congruence|]. fold k. cbn [t_mul t_rot].
      rewrite motion_shift, rotate_mul. apply acc_shuffle.
Qed.

(** Kinetic energy plus energy of the weight change at the power of the forces. *)
Variable It : nat -> inertia.
Hypothesis HI : forall i, (i < n)%nat -> bsym (It i).
Lemma tree_power : D (fun s => sumR n (fun i => / 2 * m_dot (v s i) (i_mul (It i) (v s i))) + sumR n (fun i => dot g (mass_moment (It i) (x s i)))) t
  (sumR n (fun i => m_dot (v t i) (sadd (i_mul (It i) (a i)) (m_cross_star (v t i) (i_mul (It i) (v t i)))))).
Proof.
  eapply D_ext; [intros s; apply sumR_add|]. apply D_sum. intros i Hi. destruct (tree_acc i Hi) as (d & D1 & D2). rewrite D2.
  eapply D_eq; [|apply D_plus; [apply D_scal, D_mdot; [exact D1|apply slim_inertia; exact D1]|
    apply (weight_lim (fun s => x s i) (fun s => pose_unit s i Hi) t (v t i) (tree_moves i Hi))]].
  cbv beta. rewrite (HI i Hi d (v t i)). rewrite m_dot_add_r, i_mul_add, m_dot_add_r.
  rewrite gyro_idle. field.
Qed.
End At.
End Tree.
