(** * C57: joint velocities are the derivatives of joint poses -- for which joints, and how far off otherwise. *)
From Coq Require Import Reals Lra String ZArith Lia Bool List.
From Verif Require Import Prelude M_Sys S_Sys M_Math P_Math P_Trig P_Rot M_Geom M_Joint M_Dyn M_Custom S_Kin P_Joint S_Deriv P_Deriv.
Import ListNotations.
Local Open Scope R_scope.

Lemma getR_skipn n l i : getR (skipn n l) i = getR l (n + i).
Proof. unfold getR. revert l. induction n as [|n IH]; intros [|a l]; cbn [skipn nth Nat.add]; auto. now destruct i. Qed.
(** Rewrites a computed sum of motions. *)
Ltac sum_is M := match goal with |- context [sadd ?a ?b] => let E := fresh in assert (E : sadd a b = M);
  [clear; unfold v3_of, const, mrx, mry, mrz, mpx, mpy, mpz, axis_motion; rewrite ?getR_skipn; cbn [Nat.add]; repeat match goal with |- context [?f ?pr] => match type of (f pr) with vec3 => is_var pr; generalize (f pr) end end; solve [vring]|rewrite E; clear E] end.

Section Deriv.
Context {P : Type}.
Notation jt := (@builtin_table P).

(** Joint types whose motion subspace is right at every configuration. *)
Definition exact_types : list string := ["rx"; "ry"; "rz"; "px"; "py"; "pz"; "p3d"; "frozen"; "spherical"]%string.

Lemma not_quat typ : ~ In typ ["free"; "spherical"; "cor"]%string -> ~ has_quat typ. Proof. auto. Qed.
Ltac noquat := let H := fresh in intros H; unfold has_quat in H; cbn in H; repeat (destruct H as [H|H]; [discriminate H|]); exact H.

Lemma jcalc_inv (tab : joint_table P) typ qd p x m (c : R -> list R) :
  (forall s, jcalc_transform tab typ (c s) p = Ok (x s)) -> jcalc_motion tab typ qd p = Ok m ->
  exists pr jm, limit_scope typ p = Ok pr /\ tab typ = Some jm /\ (forall s, jm_transform jm (c s) pr = x s) /\
    m = motion_sum (map (fun f => f pr) (jm_motion jm)) qd.
Proof.
  intros HX HM. unfold jcalc_motion, joint_lookup in HM. unfold jcalc_transform, joint_lookup in HX.
  destruct (limit_scope typ p) as [pr|] eqn:L; [|discriminate]. cbn [bind] in *.
  destruct (tab typ) as [jm|] eqn:T; [|discriminate]. cbn [bind] in *. exists pr, jm. repeat split; auto.
  - intros s. specialize (HX s). now injection HX.
  - now injection HM.
Qed.

Lemma hinge_moves k c t qd (x : R -> transform) : dot k k = 1 -> rates c t qd ->
  (forall s, t_of_rot (quat_rot_axis k (getR (c s) 0)) = x s) -> moves_with x t (Sp (vscale (getR qd 0) k) vzero).
Proof.
  intros K F HX. eapply moves_ext; [exact HX|].
  pose proof (hinge_lim k _ t _ K (F 0%nat)) as G.
  pose proof (pose_moves (fun _ => vzero) _ t vzero _ (vlim_const vzero t) G) as M. cbn beta in M. now rewrite rotate_zero in M.
Qed.
Lemma slide_moves p t p' (x : R -> transform) : vlim p t p' -> (forall s, t_of_pos (p s) = x s) -> moves_with x t (Sp vzero p').
Proof.
  intros H HX. eapply moves_ext; [exact HX|].
  assert (G : qlim (fun _ => qone) t (spin vzero qone)). { replace (spin vzero qone) with (Q4 0 0 0 0) by (unfold spin; vring). apply qlim_const. }
  pose proof (pose_moves p _ t p' _ H G) as M. cbn beta in M. now rewrite rotate_one in M.
Qed.
Lemma rates_v3 c t d : rates c t d -> vlim (fun s => v3_of (c s)) t (v3_of d).
Proof. intros H. split; [|split]; cbn [v3_of vx vy vz]; apply H. Qed.
Lemma rates_dir c t d k : rates c t d -> vlim (fun s => vscale (getR (c s) 0) k) t (vscale (getR d 0) k).
Proof.
  intros H. pose proof (H 0%nat) as H0. split; [|split]; cbn [vscale vx vy vz];
    (eapply D_eq; [|eapply D_mult; [exact H0|apply D_const]]; cbn beta; ring).
Qed.

Theorem C57_exact_joints typ c t qd (p : params P) x m : In typ exact_types -> follows typ c t qd ->
  (forall s, jcalc_transform jt typ (c s) p = Ok (x s)) -> jcalc_motion jt typ qd p = Ok m -> moves_with x t m.
Proof.
  intros IN [FQ FN] HX HM. destruct (jcalc_inv _ _ _ _ _ _ _ HX HM) as (pr & jm & _ & T & EX & ->). clear HX HM.
  unfold exact_types in IN. cbn [In] in IN.
  destruct IN as [<-|[<-|[<-|[<-|[<-|[<-|[<-|[<-|[<-|[]]]]]]]]]]; cbn in T; injection T as <-;
    cbn [jm_motion jm_transform map] in *; unfold motion_sum; cbn [length seq fold_left nth const map];
    try (assert (F : rates c t qd) by (apply FN; noquat)).
  - sum_is (Sp (vscale (getR qd 0) x_unit) vzero). exact (hinge_moves _ _ _ _ _ dot_x F EX).
  - sum_is (Sp (vscale (getR qd 0) y_unit) vzero). exact (hinge_moves _ _ _ _ _ dot_y F EX).
  - sum_is (Sp (vscale (getR qd 0) z_unit) vzero). exact (hinge_moves _ _ _ _ _ dot_z F EX).
  - sum_is (Sp vzero (vscale (getR qd 0) x_unit)). exact (slide_moves _ _ _ _ (rates_dir _ _ _ _ F) EX).
  - sum_is (Sp vzero (vscale (getR qd 0) y_unit)). exact (slide_moves _ _ _ _ (rates_dir _ _ _ _ F) EX).
  - sum_is (Sp vzero (vscale (getR qd 0) z_unit)). exact (slide_moves _ _ _ _ (rates_dir _ _ _ _ F) EX).
  - sum_is (Sp vzero (v3_of qd)). exact (slide_moves _ _ _ _ (rates_v3 _ _ _ F) EX).
  - apply (slide_moves (fun _ => vzero)); [apply vlim_const|]. intros s. rewrite <- EX. reflexivity.
  - destruct FQ as [FQ _]; [cbn; tauto|].
    assert (E1 : forall l, q4_of (firstn 4 l) = q4_of l) by (intros [|? [|? [|? [|? ?]]]]; reflexivity).
    assert (E2 : forall l, v3_of (firstn 3 l) = v3_of l) by (intros [|? [|? [|? ?]]]; reflexivity).
    rewrite E1, E2 in FQ. eapply qlim_ext in FQ; [|intros s; apply E1].
    eapply moves_ext; [exact EX|]. sum_is (Sp (v3_of qd) vzero).
    pose proof (pose_moves (fun _ => vzero) _ t vzero _ (vlim_const vzero t) FQ) as M. cbn beta in M. now rewrite rotate_zero in M.
Qed.

(** ** Free joints: the velocity coordinates of the translation are rates in the parent frame, the dynamics take
    them as velocity in the child frame *)
Lemma take_v3 l : v3_of (skipn 4 (firstn 7 l)) = v3_of (skipn 4 l).
Proof. destruct l as [|? [|? [|? [|? [|? [|? [|? ?]]]]]]]; reflexivity. Qed.
Lemma take_q4 l : q4_of (firstn 4 (firstn 7 l)) = q4_of (firstn 4 l).
Proof. destruct l as [|? [|? [|? [|? [|? [|? [|? ?]]]]]]]; reflexivity. Qed.
Lemma getR_firstn n l i : (i < n)%nat -> getR (firstn n l) i = getR l i.
Proof.
  unfold getR. revert l i. induction n as [|n IH]; intros [|a l] [|i] H; cbn [firstn nth]; auto; try lia. apply IH. lia.
Qed.
Lemma v3_first l : v3_of (firstn 3 l) = v3_of l. Proof. destruct l as [|? [|? [|? ?]]]; reflexivity. Qed.

Theorem C57_free_velocity typ c t qd (p : params P) x m : In typ ["free"; "free_2d"]%string -> follows typ c t qd ->
  (forall s, jcalc_transform jt typ (c s) p = Ok (x s)) -> jcalc_motion jt typ qd p = Ok m ->
  moves_with x t (Sp (ang m) (rotate (vel m) (t_rot (x t)))) /\
  (qunit (t_rot (x t)) -> (moves_with x t m <-> rotate (vel m) (t_rot (x t)) = vel m)).
Proof.
  intros IN [FQ FN] HX HM. destruct (jcalc_inv _ _ _ _ _ _ _ HX HM) as (pr & jm & _ & T & EX & ->). clear HX HM.
  assert (M : moves_with x t (Sp (ang (motion_sum (map (fun f => f pr) (jm_motion jm)) qd))
     (rotate (vel (motion_sum (map (fun f => f pr) (jm_motion jm)) qd)) (t_rot (x t))))).
  { destruct IN as [<-|[<-|[]]]; cbn in T; injection T as <-;
    cbn [jm_motion jm_transform map] in *; unfold motion_sum; cbn [length seq fold_left nth const map].
    - destruct FQ as [FQ FR]; [cbn; tauto|]. rewrite v3_first in FQ. apply rates_v3 in FR.
      pose proof (pose_moves _ _ t _ _ FR FQ) as M. cbn beta in M. rewrite <- (EX t). cbn [free_transform t_rot].
      eapply moves_ext; [exact EX|]. unfold free_transform.
      sum_is (Sp (v3_of qd) (v3_of (skipn 3 qd))). exact M.
    - assert (F : rates c t qd) by (apply FN; noquat). rewrite <- (EX t). cbn [free_2d_transform t_rot].
      eapply moves_ext; [exact EX|]. unfold free_2d_transform.
      pose proof (hinge_lim x_unit _ t _ dot_x (F 0%nat)) as G.
      assert (H : vlim (fun s => V3 0 (getR (c s) 1) (getR (c s) 2)) t (V3 0 (getR qd 1) (getR qd 2))).
      { split; [|split]; cbn [vx vy vz]; [apply D_const|apply F..]. }
      pose proof (pose_moves _ _ t _ _ H G) as M. cbn beta in M.
      sum_is (Sp (vscale (getR qd 0) x_unit) (V3 0 (getR qd 1) (getR qd 2))). exact M. }
  split; [exact M|]. intros U. set (m := motion_sum _ qd) in *. split; intros H.
  - assert (E := moves_unique _ _ _ _ U H M). apply (f_equal vel) in E. cbn [vel] in E. now rewrite <- E.
  - rewrite H in M. destruct m. exact M.
Qed.

(** cor: the centre of rotation [b] (last three coordinates) adds [w x b]. *)
Theorem C57_cor_velocity c t qd (p : params P) x m : follows "cor" c t qd -> qunit (q4_of (firstn 4 (c t))) ->
  (forall s, jcalc_transform jt "cor" (c s) p = Ok (x s)) -> jcalc_motion jt "cor" qd p = Ok m ->
  let w := v3_of qd in let lin := v3_of (skipn 3 qd) in let b := v3_of (skipn 7 (c t)) in let b' := v3_of (skipn 6 qd) in
  m = Sp w (vadd lin b') /\
  moves_with x t (Sp w (vadd (rotate lin (t_rot (x t))) (vadd b' (cross w b)))) /\
  (moves_with x t m <-> vadd (rotate lin (t_rot (x t))) (cross w b) = lin).
Proof.
  intros [FQ _] U HX HM w lin b b'. destruct (jcalc_inv _ _ _ _ _ _ _ HX HM) as (pr & jm & _ & T & EX & Em). clear HX HM.
  cbn in T; injection T as <-. cbn [jm_motion jm_transform map] in *.
  destruct FQ as [FQ FR]; [cbn; tauto|]. rewrite v3_first in FQ. fold w in FQ.
  assert (Xs : forall s, x s = Tr (vadd (v3_of (skipn 4 (c s))) (rotate (v3_of (skipn 7 (c s))) (qinv (q4_of (firstn 4 (c s)))))) (q4_of (firstn 4 (c s)))).
  { intros s. rewrite <- EX. unfold cor_transform, t_mul, p3d_transform, free_transform, t_of_pos. cbn [t_pos t_rot]. rewrite take_v3, take_q4.
    f_equal. generalize (q4_of (firstn 4 (c s))). clear. vring. }
  assert (Xr : t_rot (x t) = q4_of (firstn 4 (c t))) by now rewrite Xs. rewrite Xr.
  assert (E1 : m = Sp w (vadd lin b')).
  { rewrite Em. unfold motion_sum, w, lin, b'. cbn [length seq fold_left nth const map Nat.add].
    sum_is (Sp (v3_of qd) (vadd (v3_of (skipn 3 qd)) (v3_of (skipn 6 qd)))). reflexivity. }
  assert (M : moves_with x t (Sp w (vadd (rotate lin (q4_of (firstn 4 (c t)))) (vadd b' (cross w b))))).
  { eapply moves_ext; [intros s; symmetry; apply Xs|].
    assert (Fp : vlim (fun s => v3_of (skipn 4 (c s))) t lin) by now apply rates_v3.
    assert (Fb : vlim (fun s => v3_of (skipn 7 (c s))) t b').
    { split; [|split]; cbn [v3_of vx vy vz]; unfold b'; cbn [v3_of vx vy vz].
      - specialize (FR 3%nat). rewrite getR_skipn in FR. rewrite getR_skipn. eapply D_ext; [|exact FR]. intros s. cbn beta. now rewrite !getR_skipn.
      - specialize (FR 4%nat). rewrite getR_skipn in FR. rewrite getR_skipn. eapply D_ext; [|exact FR]. intros s. cbn beta. now rewrite !getR_skipn.
      - specialize (FR 5%nat). rewrite getR_skipn in FR. rewrite getR_skipn. eapply D_ext; [|exact FR]. intros s. cbn beta. now rewrite !getR_skipn. }
    pose proof (rotate_lim _ _ _ _ _ Fb (inv_lim _ _ _ U FQ)) as G. cbn beta in G.
    pose proof (pose_moves _ _ t _ _ (vlim_add _ _ _ _ _ Fp G) FQ) as M. cbn beta in M. rewrite rotate_add in M.
    revert M U. fold b. generalize (q4_of (firstn 4 (c t))). intros r M U.
    replace (vadd b' (cross w b)) with (rotate (vsub (rotate b' (qinv r)) (cross (vneg (rotate w (qinv r))) (rotate b (qinv r)))) r); [exact M|].
    rewrite rotate_sub, rotate_inv_r, <- rotate_cross, rotate_neg, !rotate_inv_r by auto. vring. }
  split; [exact E1|]. split; [exact M|]. split; intros H.
  - rewrite E1 in H. assert (U' : qunit (t_rot (x t))) by now rewrite Xr.
    assert (E := moves_unique _ _ _ _ U' H M). apply (f_equal vel) in E. cbn [vel] in E.
    revert E. generalize (rotate lin (q4_of (firstn 4 (c t)))), (cross w b). intros v1 v2 E. destruct v1, v2, lin, b'. vunfold. injection E as F1 F2 F3. f_equal; lra.
  - rewrite E1. rewrite <- H at 1. revert M. generalize (rotate lin (q4_of (firstn 4 (c t)))), (cross w b). intros v1 v2 M.
    replace (vadd (vadd v1 v2) b') with (vadd v1 (vadd b' v2)) by vring. exact M.
Qed.

(** ** Two hinges in one joint: the subspace is right only while the second angle is zero (or the first rests) *)
Theorem C57_saddle_velocity c t qd (p : params P) x m : follows "saddle" c t qd ->
  (forall s, jcalc_transform jt "saddle" (c s) p = Ok (x s)) -> jcalc_motion jt "saddle" qd p = Ok m ->
  moves_with x t (Sp (vadd (vscale (getR qd 1) z_unit) (vscale (getR qd 0) (rotate y_unit (quat_rot_axis z_unit (getR (c t) 1))))) vzero) /\
  (moves_with x t m <-> getR qd 0 = 0 \/ cos (getR (c t) 1) = 1).
Proof.
  intros [_ FN] HX HM. destruct (jcalc_inv _ _ _ _ _ _ _ HX HM) as (pr & jm & _ & T & EX & ->). clear HX HM.
  cbn in T; injection T as <-. cbn [jm_motion jm_transform map] in *. unfold motion_sum; cbn [length seq fold_left nth const map].
  assert (F : rates c t qd) by (apply FN; noquat).
  assert (XE : forall s, t_of_rot (qmul (quat_rot_axis z_unit (getR (c s) 1)) (quat_rot_axis y_unit (getR (c s) 0))) = x s).
  { intros s. rewrite <- EX. unfold saddle_transform. rewrite euler_composition. f_equal. f_equal.
    assert (quat_rot_axis x_unit 0 = qone) as ->; [|generalize (quat_rot_axis y_unit (getR (c s) 0)); clear; vring].
    rewrite rot_axis_unit by apply dot_x. replace (- 0 / 2) with 0 by field. apply rot_0. }
  sum_is (Sp (vadd (vscale (getR qd 0) y_unit) (vscale (getR qd 1) z_unit)) vzero).
  rewrite <- (rotate_perp y_unit z_unit (getR (c t) 1) dot_y dot_z) by (vunfold; ring).
  rewrite <- (hinges_iff y_unit z_unit (fun s => getR (c s) 0) (fun s => getR (c s) 1) t _ _ dot_y dot_z (F 0%nat) (F 1%nat)).
  split.
  - eapply moves_ext; [exact XE|]. exact (hinges_move y_unit z_unit _ _ t _ _ dot_y dot_z (F 0%nat) (F 1%nat)).
  - split; apply moves_ext; auto.
Qed.

(** ** Joints with random axes *)
Section Axes.
Variable axes residual : P -> vec3.
Variable axes2 : nat -> P -> vec3.
Notation jt_rr := (register jt "rr" (rr_joint axes)).
Notation jt_imp := (register jt "rr_imp" (rr_imp_joint axes residual)).
Notation jt_rsaddle := (register jt "rsaddle" (rsaddle_joint axes2)).

Theorem C57_rr c t qd (p : params P) pr x m : limit_scope "rr" p = Ok pr -> dot (axes pr) (axes pr) = 1 -> follows "rr" c t qd ->
  (forall s, jcalc_transform jt_rr "rr" (c s) p = Ok (x s)) -> jcalc_motion jt_rr "rr" qd p = Ok m -> moves_with x t m.
Proof.
  intros LS U [_ FN] HX HM. destruct (jcalc_inv _ _ _ _ _ _ _ HX HM) as (pr' & jm & LS' & T & EX & ->). clear HX HM.
  rewrite LS in LS'. injection LS' as <-. unfold register in T. cbn in T. injection T as <-. cbn [jm_motion jm_transform rr_joint map] in *.
  assert (F : rates c t qd) by (apply FN; noquat). unfold motion_sum; cbn [length seq fold_left nth axis_motion].
  sum_is (Sp (vscale (getR qd 0) (axes pr)) vzero). exact (hinge_moves _ _ _ _ _ U F EX).
Qed.
Theorem C57_rr_imp_velocity c t qd (p : params P) pr x m : limit_scope "rr_imp" p = Ok pr ->
  dot (axes pr) (axes pr) = 1 -> dot (residual pr) (residual pr) = 1 -> dot (axes pr) (residual pr) = 0 -> follows "rr_imp" c t qd ->
  (forall s, jcalc_transform jt_imp "rr_imp" (c s) p = Ok (x s)) -> jcalc_motion jt_imp "rr_imp" qd p = Ok m ->
  moves_with x t (Sp (vadd (vscale (getR qd 1) (residual pr)) (vscale (getR qd 0) (rotate (axes pr) (quat_rot_axis (residual pr) (getR (c t) 1))))) vzero) /\
  (moves_with x t m <-> getR qd 0 = 0 \/ cos (getR (c t) 1) = 1).
Proof.
  intros LS U1 U2 O [_ FN] HX HM. destruct (jcalc_inv _ _ _ _ _ _ _ HX HM) as (pr' & jm & LS' & T & EX & ->). clear HX HM.
  rewrite LS in LS'. injection LS' as <-. unfold register in T. cbn in T. injection T as <-. cbn [jm_motion jm_transform rr_imp_joint map] in *.
  assert (F : rates c t qd) by (apply FN; noquat). unfold motion_sum; cbn [length seq fold_left nth axis_motion].
  sum_is (Sp (vadd (vscale (getR qd 0) (axes pr)) (vscale (getR qd 1) (residual pr))) vzero).
  rewrite <- (rotate_perp (axes pr) (residual pr) (getR (c t) 1) U1 U2 O).
  rewrite <- (hinges_iff (axes pr) (residual pr) (fun s => getR (c s) 0) (fun s => getR (c s) 1) t _ _ U1 U2 (F 0%nat) (F 1%nat)).
  split.
  - eapply moves_ext; [exact EX|]. exact (hinges_move (axes pr) (residual pr) _ _ t _ _ U1 U2 (F 0%nat) (F 1%nat)).
  - split; apply moves_ext; intros s; [|symmetry]; rewrite <- EX; reflexivity.
Qed.
Theorem C57_rsaddle_velocity c t qd (p : params P) pr x m : limit_scope "rsaddle" p = Ok pr ->
  dot (axes2 0%nat pr) (axes2 0%nat pr) = 1 -> dot (axes2 1%nat pr) (axes2 1%nat pr) = 1 -> follows "rsaddle" c t qd ->
  (forall s, jcalc_transform jt_rsaddle "rsaddle" (c s) p = Ok (x s)) -> jcalc_motion jt_rsaddle "rsaddle" qd p = Ok m ->
  let seen := rotate (axes2 0%nat pr) (quat_rot_axis (axes2 1%nat pr) (getR (c t) 1)) in
  moves_with x t (Sp (vadd (vscale (getR qd 1) (axes2 1%nat pr)) (vscale (getR qd 0) seen)) vzero) /\
  (moves_with x t m <-> getR qd 0 = 0 \/ seen = axes2 0%nat pr).
Proof.
  intros LS U1 U2 [_ FN] HX HM seen. destruct (jcalc_inv _ _ _ _ _ _ _ HX HM) as (pr' & jm & LS' & T & EX & ->). clear HX HM.
  rewrite LS in LS'. injection LS' as <-. unfold register in T. cbn in T. injection T as <-. cbn [jm_motion jm_transform rsaddle_joint map seq] in *.
  assert (F : rates c t qd) by (apply FN; noquat). unfold motion_sum; cbn [length seq fold_left nth axis_motion].
  sum_is (Sp (vadd (vscale (getR qd 0) (axes2 0%nat pr)) (vscale (getR qd 1) (axes2 1%nat pr))) vzero).
  unfold seen. rewrite <- (hinges_iff (axes2 0%nat pr) (axes2 1%nat pr) (fun s => getR (c s) 0) (fun s => getR (c s) 1) t _ _ U1 U2 (F 0%nat) (F 1%nat)).
  split.
  - eapply moves_ext; [exact EX|]. exact (hinges_move (axes2 0%nat pr) (axes2 1%nat pr) _ _ t _ _ U1 U2 (F 0%nat) (F 1%nat)).
  - split; apply moves_ext; intros s; [|symmetry]; rewrite <- EX; reflexivity.
Qed.
End Axes.

(** ** The integrator moves the coordinates along the velocity, up to 1e-8 rad/s *)
Lemma getR_step q qd dt i : length q = length qd -> getR (ladd q (lscale dt qd)) i = getR q i + dt * getR qd i.
Proof.
  unfold getR, ladd, lscale. revert qd i. induction q as [|a q IH]; intros [|b qd] i L; try discriminate; cbn [zipw map].
  - destruct i; cbn; ring.
  - destruct i; cbn [nth]; [reflexivity|]. apply IH. now injection L.
Qed.
Lemma step_rates q qd : length q = length qd -> rates (fun dt => ladd q (lscale dt qd)) 0 qd.
Proof.
  intros L i. eapply D_ext; [intros s; symmetry; now apply getR_step|].
  eapply D_eq; [|eapply D_plus; [apply D_const|eapply D_mult; [apply D_id|apply D_const]]]. cbn beta. ring.
Qed.
Lemma quat_front q l : q4_of (firstn 4 (q4_list q ++ l)) = q /\ skipn 4 (q4_list q ++ l) = l.
Proof. destruct q. split; reflexivity. Qed.

(** Joint types called by their own name, not "free_something" (base.py 594-620). *)
Theorem C57_integrator typ q qd : joint_type_simplification typ = typ ->
  (has_quat typ -> length q = S (length qd) /\ (3 <= length qd)%nat /\ qunit (q4_of (firstn 4 q))) ->
  (typ = "spherical"%string -> length qd = 3%nat) -> (~ has_quat typ -> length q = length qd) ->
  let c dt := integrate_link dt typ q qd in
  c 0 = q /\
  exists qd', follows typ c 0 qd' /\ length qd' = length qd /\ (~ has_quat typ -> qd' = qd) /\
    (has_quat typ -> skipn 3 qd' = skipn 3 qd /\ vnorm (vsub (v3_of qd') (v3_of qd)) <= / 10 ^ 8 /\ (v3_of qd = vzero -> qd' = qd)).
Proof.
  intros PL HQ HS HN c.
  assert (HF : forall (fr : bool), has_quat typ -> (is_free_or_cor typ = fr) -> (fr = false -> typ = "spherical"%string) ->
     (forall dt, c dt = q4_list (strapdown (q4_of (firstn 4 q)) (v3_of qd) dt) ++ ladd (skipn 4 q) (lscale dt (skipn 3 qd))) ->
     c 0 = q /\ exists qd', follows typ c 0 qd' /\ length qd' = length qd /\ (~ has_quat typ -> qd' = qd) /\
    (has_quat typ -> skipn 3 qd' = skipn 3 qd /\ vnorm (vsub (v3_of qd') (v3_of qd)) <= / 10 ^ 8 /\ (v3_of qd = vzero -> qd' = qd))).
  { intros fr H _ _ Ec. destruct (HQ H) as (L1 & L2 & U). destruct (strapdown_lim _ (v3_of qd) U) as [S0 SL].
    assert (LL : length (skipn 4 q) = length (skipn 3 qd)) by (rewrite !skipn_length; lia).
    split.
    - rewrite Ec, S0. assert (L4 : (4 <= length q)%nat) by lia.
      assert (E : ladd (skipn 4 q) (lscale 0 (skipn 3 qd)) = skipn 4 q).
      { revert LL. generalize (skipn 4 q), (skipn 3 qd). intros l. induction l as [|a l IH]; intros [|b l'] L; try discriminate; [reflexivity|].
        unfold ladd, lscale in *. cbn [zipw map]. rewrite IH by (now injection L). f_equal. ring. }
      rewrite E. destruct q as [|a0 [|a1 [|a2 [|a3 q]]]]; cbn [length] in L4; try lia. reflexivity.
    - exists (v3_list (applied_rate (v3_of qd)) ++ skipn 3 qd).
      assert (V : v3_of (firstn 3 (v3_list (applied_rate (v3_of qd)) ++ skipn 3 qd)) = applied_rate (v3_of qd)) by (destruct (applied_rate (v3_of qd)); reflexivity).
      split; [split; [intros _|now intros X; elim X]|split; [|split; [now intros X; elim X|intros _]]].
      + split.
        * eapply qlim_ext; [intros s; cbn beta; rewrite Ec; symmetry; apply quat_front|].
          rewrite V, Ec, (proj1 (quat_front _ _)), S0. exact SL.
        * replace (skipn 3 (v3_list (applied_rate (v3_of qd)) ++ skipn 3 qd)) with (skipn 3 qd) by reflexivity.
          intros i. eapply D_ext; [|exact (step_rates _ _ LL i)]. intros s. cbn beta. now rewrite Ec, (proj2 (quat_front _ _)).
      + rewrite app_length, skipn_length. cbn [v3_list length]. lia.
      + split; [reflexivity|]. rewrite <- (v3_first (v3_list _ ++ _)), V. split; [apply applied_close|].
        intros Z. rewrite Z, applied_zero. destruct qd as [|a [|b [|d qd]]]; cbn [length] in L2; try lia.
        unfold v3_of, getR in Z. cbn [nth] in Z. injection Z as -> -> ->. reflexivity. }
  destruct (is_free_or_cor typ) eqn:E1.
  - apply (HF true); auto; [|discriminate|].
    + unfold is_free_or_cor in E1. rewrite PL in E1. apply memS_In in E1. cbn in *. intuition.
    + intros dt. unfold c, integrate_link. rewrite E1. now rewrite v3_first.
  - destruct (is_spherical typ) eqn:E2.
    + unfold is_spherical in E2. rewrite PL in E2. apply String.eqb_eq in E2.
      assert (HQT : has_quat typ) by (subst; cbn; tauto).
      apply (HF false); auto. intros dt. destruct (HQ HQT) as (L1 & _ & _). specialize (HS E2).
      unfold c, integrate_link. rewrite E1. assert (is_spherical typ = true) as -> by now (subst; reflexivity).
      destruct q as [|a0 [|a1 [|a2 [|a3 [|a4 q]]]]]; cbn [length] in L1; try lia.
      destruct qd as [|b0 [|b1 [|b2 [|b3 qd]]]]; cbn [length] in HS; try lia. cbn [skipn lscale map ladd zipw]. rewrite app_nil_r. reflexivity.
    + assert (NQ : ~ has_quat typ).
      { intros X. unfold is_free_or_cor in E1. unfold is_spherical in E2. rewrite PL in *. apply String.eqb_neq in E2.
        assert (N : ~ In typ ["free"; "cor"]%string) by (rewrite <- memS_In, E1; discriminate). cbn in X, N. intuition. }
      specialize (HN NQ). assert (Ec : forall dt, c dt = ladd q (lscale dt qd)) by (intros; unfold c, integrate_link; now rewrite E1, E2).
      split.
      * rewrite Ec. clear -HN. revert qd HN. induction q as [|a q IH]; intros [|b qd] L; try discriminate; [reflexivity|].
        unfold ladd, lscale in *. cbn [zipw map]. rewrite IH by (now injection L). f_equal. ring.
      * exists qd. split; [split; [intros X; now elim NQ|intros _]|split; [reflexivity|split; [auto|intros X; now elim NQ]]].
        intros i. eapply D_ext; [|exact (step_rates _ _ HN i)]. intros s. cbn beta. now rewrite Ec.
Qed.
End Deriv.

(** The built-in joint types are these, and each goes by its own name. *)
Theorem C57_types {P} typ : (exists m, @builtin_table P typ = Some m) <-> In typ (exact_types ++ ["free"; "free_2d"; "cor"; "saddle"]%string).
Proof.
  split.
  - intros [m H]. unfold builtin_table in H. apply dget_In in H. apply (in_map fst) in H. cbn in *. intuition.
  - cbn. intros H. repeat destruct H as [<-|H]; try (eexists; reflexivity). destruct H.
Qed.
Theorem C57_plain_names {P} typ m : @builtin_table P typ = Some m -> joint_type_simplification typ = typ.
Proof.
  intros H. assert (X : exists m, @builtin_table P typ = Some m) by eauto. apply C57_types in X. cbn in X.
  repeat destruct X as [<-|X]; try reflexivity. destruct X.
Qed.

(** ** The subspace is wrong elsewhere *)
Definition all_right (typ : string) : Prop := forall c t qd (p : params unit) x m, follows typ c t qd ->
  (forall s, jcalc_transform builtin_table typ (c s) p = Ok (x s)) -> jcalc_motion builtin_table typ qd p = Ok m ->
  qunit (t_rot (x t)) -> moves_with x t m.
Definition pdef : params unit := [("default"%string, tt)].

Ltac rate_cases := intros i; unfold getR; repeat (destruct i as [|i]; cbn [nth]; [first [apply D_const | apply D_id]|]); apply D_const.
Lemma half_turn : rotate y_unit (quat_rot_axis x_unit PI) = V3 0 (-1) 0.
Proof.
  rewrite rot_axis_unit by apply dot_x. replace (- PI / 2) with (- (PI / 2)) by field. unfold rot. rewrite cos_neg, sin_neg, cos_PI2, sin_PI2.
  vunfold. f_equal; ring.
Qed.

Theorem C57_saddle_refuted : ~ all_right "saddle".
Proof.
  intros H.
  assert (F : follows "saddle" (fun s => [s; PI / 2]) 0 [1; 0]).
  { split; [intros X; cbn in X; intuition discriminate|intros _; rate_cases]. }
  pose proof (C57_saddle_velocity (fun s => [s; PI / 2]) 0 [1; 0] pdef _ _ F (fun s => eq_refl) eq_refl) as [_ G].
  specialize (H _ _ _ pdef _ _ F (fun s => eq_refl) eq_refl (euler_unit _ _ _)). apply G in H. unfold getR in H. cbn [nth] in H.
  rewrite cos_PI2 in H. lra.
Qed.
Theorem C57_free_2d_refuted : ~ all_right "free_2d".
Proof.
  intros H.
  assert (F : follows "free_2d" (fun s => [PI; s; 0]) 0 [0; 1; 0]).
  { split; [intros X; cbn in X; intuition discriminate|intros _; rate_cases]. }
  assert (I : In "free_2d"%string ["free"; "free_2d"]%string) by (cbn; tauto).
  pose proof (C57_free_velocity "free_2d" (fun s => [PI; s; 0]) 0 [0; 1; 0] pdef _ _ I F (fun s => eq_refl) eq_refl) as [_ G].
  specialize (H _ _ _ pdef _ _ F (fun s => eq_refl) eq_refl (qunit_rot_axis x_unit _ dot_x)).
  apply (proj1 (G (qunit_rot_axis x_unit _ dot_x))) in H. cbn [free_2d_transform t_rot jm_transform] in H.
  match type of H with rotate ?v ?q = _ => change q with (quat_rot_axis x_unit PI) in H; assert (E : v = y_unit) end.
  { unfold motion_sum. cbn [map jm_motion length seq fold_left nth const]. unfold getR. cbn [nth]. unfold const, mrx, mpy, mpz. clear. vunfold. f_equal; ring. }
  rewrite E, half_turn in H. unfold y_unit in H. injection H. lra.
Qed.
Definition flipped : quat := Q4 0 1 0 0.
Lemma flipped_unit : qunit flipped. Proof. unfold qunit, flipped. vunfold. ring. Qed.
Theorem C57_free_refuted : ~ all_right "free".
Proof.
  intros H.
  assert (F : follows "free" (fun s => [0; 1; 0; 0; 0; s; 0]) 0 [0; 0; 0; 0; 1; 0]).
  { split; [|intros X; elim X; cbn; tauto]. intros _. cbn [firstn skipn]. split; [|rate_cases].
    unfold q4_of, v3_of, getR. cbn [nth]. replace (spin _ _) with (Q4 0 0 0 0) by (unfold spin; vunfold; f_equal; ring). apply qlim_const. }
  assert (I : In "free"%string ["free"; "free_2d"]%string) by (cbn; tauto).
  pose proof (C57_free_velocity "free" (fun s => [0; 1; 0; 0; 0; s; 0]) 0 [0; 0; 0; 0; 1; 0] pdef _ _ I F (fun s => eq_refl) eq_refl) as [_ G].
  specialize (H _ _ _ pdef _ _ F (fun s => eq_refl) eq_refl flipped_unit).
  apply (proj1 (G flipped_unit)) in H.
  match type of H with rotate ?v ?q = _ => change q with flipped in H; assert (E : v = y_unit) end.
  { unfold motion_sum. cbn [map jm_motion length seq fold_left nth const]. unfold getR. cbn [nth]. unfold const, mrx, mry, mrz, mpx, mpy, mpz. clear. vunfold. f_equal; ring. }
  rewrite E in H. unfold flipped in H. vunfold. injection H. lra.
Qed.
Theorem C57_cor_refuted : ~ all_right "cor".
Proof.
  intros H.
  assert (F : follows "cor" (fun s => [0; 1; 0; 0; 0; s; 0; 0; 0; 0]) 0 [0; 0; 0; 0; 1; 0; 0; 0; 0]).
  { split; [|intros X; elim X; cbn; tauto]. intros _. cbn [firstn skipn]. split; [|rate_cases].
    unfold q4_of, v3_of, getR. cbn [nth]. replace (spin _ _) with (Q4 0 0 0 0) by (unfold spin; vunfold; f_equal; ring). apply qlim_const. }
  pose proof (C57_cor_velocity (fun s => [0; 1; 0; 0; 0; s; 0; 0; 0; 0]) 0 [0; 0; 0; 0; 1; 0; 0; 0; 0] pdef _ _ F flipped_unit (fun s => eq_refl) eq_refl) as (_ & _ & G).
  assert (U : qunit (qmul qone flipped)) by (apply qunit_mul; [unfold qunit; vunfold; ring|apply flipped_unit]).
  specialize (H _ _ _ pdef _ _ F (fun s => eq_refl) eq_refl U).
  apply (proj1 G) in H.
  match type of H with vadd (rotate _ ?q) _ = _ => change q with (qmul qone flipped) in H end.
  unfold v3_of, getR in H. cbn [skipn nth] in H. unfold flipped in H. vunfold. injection H. lra.
Qed.

(** The axes drawn for the custom joints satisfy what the theorems on them ask for. *)
Theorem C57_drawn_axes u phi : qunit u -> dot (random_axis u) (random_axis u) = 1 /\
  let (a, r) := random_axes phi u in dot a a = 1 /\ dot r r = 1 /\ dot a r = 0.
Proof.
  intros U. unfold random_axis, random_axes. rewrite !rotate_dot by auto. pose proof (sin2_cos2 phi) as X. unfold Rsqr in X.
  cbv [dot vx vy vz x_unit]. repeat split; lra.
Qed.
(** With the axes of rr_imp the residual turns the primary axis away. *)
Theorem C57_rr_imp_refuted : exists (axes residual : unit -> vec3) phi u, qunit u /\ random_axes phi u = (axes tt, residual tt) /\
  exists c t qd x m, follows "rr_imp" c t qd /\
  (forall s, jcalc_transform (register builtin_table "rr_imp" (rr_imp_joint axes residual)) "rr_imp" (c s) pdef = Ok (x s)) /\
  jcalc_motion (register builtin_table "rr_imp" (rr_imp_joint axes residual)) "rr_imp" qd pdef = Ok m /\ ~ moves_with x t m.
Proof.
  exists (fun _ => z_unit), (fun _ => x_unit), 0, qone. split; [unfold qunit; vunfold; ring|]. split.
  { unfold random_axes. rewrite !rotate_one, cos_0, sin_0. reflexivity. }
  exists (fun s => [s; PI / 2]), 0, [1; 0].
  assert (F : follows "rr_imp" (fun s => [s; PI / 2]) 0 [1; 0]) by (split; [intros X; cbn in X; intuition discriminate|intros _; rate_cases]).
  eexists _, _. split; [exact F|]. split; [intros s; reflexivity|]. split; [reflexivity|].
  pose proof (C57_rr_imp_velocity (P := unit) (fun _ => z_unit) (fun _ => x_unit) (fun s => [s; PI / 2]) 0 [1; 0] pdef tt _ _ eq_refl dot_z dot_x ltac:(vunfold; ring) F (fun s => eq_refl) eq_refl) as [_ G].
  intros H. apply G in H. unfold getR in H. cbn [nth] in H. rewrite cos_PI2 in H. lra.
Qed.

(** ** Non-vacuity: a hinge turning, a free joint tumbling *)
Example C57_example : follows "rx" (fun s => [3 * s]) 1 [3] /\
  jcalc_motion builtin_table "rx" [3] pdef = Ok (motion_sum [mrx] [3]) /\
  moves_with (fun s => t_of_rot (quat_rot_axis x_unit (3 * s))) 1 (motion_sum [mrx] [3]).
Proof.
  assert (F : follows "rx" (fun s => [3 * s]) 1 [3]).
  { split; [intros X; cbn in X; intuition discriminate|intros _]. intros [|i]; unfold getR; cbn [nth].
    - eapply D_eq; [|apply D_scal, D_id]. ring.
    - destruct i; apply D_const. }
  split; [exact F|]. split; [reflexivity|].
  apply (C57_exact_joints (P := unit) "rx" _ 1 [3] pdef _ _ ltac:(cbn; tauto) F); [intros s; reflexivity|reflexivity].
Qed.
(** The integrator's rotation is not exact: 1 rad/s about x becomes 1 + 1e-8. *)
Theorem C57_integrator_exact_refuted : exists q qd, qunit (q4_of q) /\ length q = 4%nat /\ length qd = 3%nat /\
  ~ follows "spherical" (fun dt => integrate_link dt "spherical" q qd) 0 qd.
Proof.
  exists [1; 0; 0; 0], [1; 0; 0]. split; [unfold qunit, q4_of, getR; cbn [nth]; vunfold; ring|]. split; [reflexivity|]. split; [reflexivity|].
  intros [F _]. destruct F as [F _]; [cbn; tauto|].
  assert (U : qunit qone) by (unfold qunit; vunfold; ring).
  destruct (strapdown_lim qone x_unit U) as [S0 SL].
  assert (X : derivable_pt_lim (fun dt => qx (strapdown qone x_unit dt)) 0 (qx (spin x_unit qone))).
  { destruct F as (_ & F & _). cbn [q4_of getR qx firstn nth] in F. 
    replace (qx (spin x_unit qone)) with (qx (spin (v3_of (firstn 3 [1; 0; 0])) (q4_of (firstn 4 (integrate_link 0 "spherical" [1; 0; 0; 0] [1; 0; 0]))))).
    - eapply D_ext; [|exact F]. intros s. reflexivity.
    - change (integrate_link 0 "spherical" [1; 0; 0; 0] [1; 0; 0]) with (q4_list (strapdown qone x_unit 0)). rewrite S0. reflexivity. }
  destruct SL as (_ & SL & _). pose proof (uniqueness_limite _ _ _ _ X SL) as E. revert E. unfold applied_rate.
  assert (N : vnorm x_unit = 1) by (unfold vnorm; rewrite dot_x; apply sqrt_1). rewrite N. pose proof eps_pos as EP.
  destruct (vclose0_dec _) as [C|C].
  - intros _. destruct C as (C & _ & _). unfold close0, atol in C. cbn [vscale x_unit vx] in C. rewrite Rmult_1_r in C.
    assert (L1 : / 10 ^ 8 <= / 100) by (apply Rinv_le_contravar; lra).
    assert (L2 : / (101 / 100) <= / (1 + / 10 ^ 8)) by (apply Rinv_le_contravar; lra).
    rewrite Rabs_pos_eq in C by (left; apply Rinv_0_lt_compat; lra). lra.
  - intros E. unfold spin in E. vunfold. lra.
Qed.
