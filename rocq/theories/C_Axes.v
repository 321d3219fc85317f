(** * C69: joint axes as features. *)
From Coq Require Import Reals Lra Lia ZArith Bool String List.
From Verif Require Import Prelude M_Sys M_Math P_Math P_Trig M_Geom M_Joint M_Kin M_Random M_Draw M_Setup M_Target M_Sens M_Rcmg S_Sys S_Kin S_Setup S_Axes P_Run P_Sys P_Kin C_Kin X_Demo C_Setup C_Sens C_Target C_Xs.
From Verif Require C_Stream C_Xml.
Import ListNotations.
Local Open Scope R_scope.

(** ** The axis of a sequence of rotations *)
Lemma vnorm_scale k a : dot a a = 1 -> vnorm (vscale k a) = Rabs k.
Proof. intros U. unfold vnorm. replace (dot (vscale k a) (vscale k a)) with (k * k * dot a a) by vring. rewrite U, Rmult_1_r. apply sqrt_Rsqr_abs. Qed.
Definition raw (s : R) : R := s / (Rabs s + / 10 ^ 6).
Lemma eps_pos : 0 < / 10 ^ 6. Proof. apply Rinv_0_lt_compat, pow_lt. lra. Qed.
Lemma axis_raw_about a s q : dot a a = 1 -> about a s q -> axis_raw q = vscale (raw s) a.
Proof.
  intros U A. unfold axis_raw, raw. rewrite A, vnorm_scale by auto. unfold Rdiv. rewrite Rmult_comm. destruct a as [a1 a2 a3]. unfold vscale. cbn [vx vy vz]. f_equal; ring.
Qed.
Lemma raw_signum s : signum (raw s) = signum s /\ (s <> 0 -> raw s <> 0).
Proof.
  pose proof eps_pos as E. pose proof (Rabs_pos s) as P. unfold raw, signum, Rdiv. assert (I : 0 < / (Rabs s + / 10 ^ 6)) by (apply Rinv_0_lt_compat; lra). split.
  - destruct (Rlt_dec s 0) as [N|N].
    + destruct (Rlt_dec (s * / (Rabs s + / 10 ^ 6)) 0) as [|X]; [reflexivity|]. exfalso. apply X. rewrite <- (Rmult_0_l (/ (Rabs s + / 10 ^ 6))). now apply Rmult_lt_compat_r.
    + destruct (Rlt_dec (s * / (Rabs s + / 10 ^ 6)) 0) as [X|]; [|reflexivity]. exfalso. apply (Rlt_not_le _ _ X). apply Rmult_le_pos; lra.
  - intros N. apply Rmult_integral_contrapositive_currified; lra.
Qed.
Lemma align_scale a f0 f : dot a a = 1 -> f0 <> 0 -> align (vscale f0 a) (vscale f a) = vscale (signum f0 * Rabs f) a.
Proof.
  intros U N. unfold align. replace (vadd (vscale f0 a) (vscale f a)) with (vscale (f0 + f) a) by vring. replace (vsub (vscale f0 a) (vscale f a)) with (vscale (f0 - f) a) by vring.
  rewrite !vnorm_scale by auto. assert (M : forall k, vneg (vscale f a) = vscale k a -> k = - f -> True) by auto. clear M.
  assert (NG : vneg (vscale f a) = vscale (- f) a) by vring. rewrite NG. unfold signum.
  destruct (Rlt_dec (Rabs (f0 + f)) (Rabs (f0 - f))) as [C|C]; f_equal; unfold Rabs in *; destruct (Rlt_dec f0 0), (Rcase_abs f), (Rcase_abs (f0 + f)), (Rcase_abs (f0 - f)); lra.
Qed.
Lemma sum_scale a l : fold_right vadd vzero (map (fun k => vscale k a) l) = vscale (fold_right Rplus 0 l) a.
Proof. induction l as [|k l IH]; cbn [map fold_right]; [vring|]. rewrite IH. vring. Qed.

(** Rotations about a common axis of which the first is not the identity: the estimate is the axis, with the sign of the
    first rotation. *)
Theorem C69_estimate a ss qs s0 : dot a a = 1 -> Forall2 (about a) ss qs -> nth_error ss 0 = Some s0 -> s0 <> 0 ->
  mean_axis qs = Ok (vscale (signum s0) a).
Proof.
  intros U F H0 N0. assert (R : map axis_raw qs = map (fun s => vscale (raw s) a) ss).
  { clear H0. induction F as [|s q ss qs H _ IH]; [reflexivity|]. cbn [map]. now rewrite (axis_raw_about a s q U H), IH. }
  unfold mean_axis. rewrite R. destruct ss as [|s ss]; [discriminate|]. injection H0 as ->. set (l := s0 :: ss). change (map (fun s => vscale (raw s) a) l) with (vscale (raw s0) a :: map (fun s => vscale (raw s) a) ss) at 1.
  cbv iota. f_equal. destruct (raw_signum s0) as [SG NZ]. specialize (NZ N0).
  rewrite map_map. assert (A : map (fun s => align (vscale (raw s0) a) (vscale (raw s) a)) l = map (fun k => vscale k a) (map (fun s => signum s0 * Rabs (raw s)) l)).
  { rewrite map_map. apply map_ext. intros s. rewrite align_scale by auto. now rewrite SG. }
  rewrite A. unfold vmean. rewrite sum_scale.
  set (m := fold_right Rplus 0 (map (fun s => Rabs (raw s)) l)).
  assert (M : fold_right Rplus 0 (map (fun s => signum s0 * Rabs (raw s)) l) = signum s0 * m). { unfold m. generalize l. intros k. induction k as [|s k IH]; cbn [map fold_right]; [ring|]. rewrite IH. ring. }
  rewrite M, !map_length. assert (PM : 0 < m).
  { unfold m, l. cbn [map fold_right]. assert (0 < Rabs (raw s0)) by now apply Rabs_pos_lt. assert (0 <= fold_right Rplus 0 (map (fun s => Rabs (raw s)) ss)); [|lra].
    generalize ss. intros k. induction k as [|s k IH]; cbn [map fold_right]; [lra|]. pose proof (Rabs_pos (raw s)). lra. }
  assert (PL : 0 < INR (length l)) by (apply lt_0_INR; cbn; lia). set (c := / INR (length l)). assert (PC : 0 < c) by now apply Rinv_0_lt_compat.
  replace (vscale c (vscale (signum s0 * m) a)) with (vscale (signum s0 * (c * m)) a) by vring. rewrite vnorm_scale by auto. assert (PCM : 0 < c * m) by now apply Rmult_lt_0_compat.
  assert (AB : Rabs (signum s0 * (c * m)) = c * m). { rewrite Rabs_mult, (Rabs_pos_eq (c * m)) by lra. unfold signum. destruct (Rlt_dec s0 0); [rewrite Rabs_left by lra|rewrite Rabs_right by lra]; ring. }
  rewrite AB. destruct a as [a1 a2 a3]. unfold vscale. cbn [vx vy vz]. f_equal; field; lra.
Qed.

(** ** Noise *)
Lemma dot_bound a b : dot a a = 1 -> dot b b = 1 -> -1 <= dot a b <= 1.
Proof.
  intros A B. assert (0 <= dot (vadd a b) (vadd a b)) by (destruct a as [a1 a2 a3], b as [b1 b2 b3]; unfold dot, vadd; cbn [vx vy vz]; pose proof (Rle_0_sqr (a1 + b1)); pose proof (Rle_0_sqr (a2 + b2)); pose proof (Rle_0_sqr (a3 + b3)); unfold Rsqr in *; lra).
  assert (0 <= dot (vsub a b) (vsub a b)) by (destruct a as [a1 a2 a3], b as [b1 b2 b3]; unfold dot, vsub; cbn [vx vy vz]; pose proof (Rle_0_sqr (a1 - b1)); pose proof (Rle_0_sqr (a2 - b2)); pose proof (Rle_0_sqr (a3 - b3)); unfold Rsqr in *; lra).
  replace (dot (vadd a b) (vadd a b)) with (dot a a + 2 * dot a b + dot b b) in H by vring. replace (dot (vsub a b) (vsub a b)) with (dot a a - 2 * dot a b + dot b b) in H0 by vring. lra.
Qed.
Lemma turn_unit m q : turn_within m q -> qunit q.
Proof.
  intros (n & a & U & _ & E). assert (X : qunit (turn n a)).
  { unfold turn, qunit, qnorm2, qdot. cbn [qw qx qy qz]. replace (_ + _ + _ + _) with (cos (a / 2) * cos (a / 2) + sin (a / 2) * sin (a / 2) * dot n n) by (unfold dot; ring). rewrite U. pose proof (sin2_cos2 (a / 2)) as S. unfold Rsqr in S. lra. }
  destruct E as [->| ->]; [exact X|]. unfold qunit, qnorm2, qdot, qneg in *. cbn [qw qx qy qz] in *. rewrite <- X. ring.
Qed.
Lemma turn_product n a k b m1 m2 : dot n n = 1 -> dot k k = 1 -> Rabs a <= m1 -> Rabs b <= m2 -> m1 + m2 <= PI -> cos ((m1 + m2) / 2) <= qw (qmul (turn n a) (turn k b)).
Proof.
  intros U V A B M. pose proof (dot_bound n k U V) as D. pose proof (Rabs_pos a). pose proof (Rabs_pos b). pose proof PI_RGT_0.
  replace (qw (qmul (turn n a) (turn k b))) with (cos (a / 2) * cos (b / 2) - sin (a / 2) * sin (b / 2) * dot n k) by (unfold turn; vring).
  apply Rle_trans with (cos ((Rabs a + Rabs b) / 2)); [apply cos_decr_1; lra|]. replace ((Rabs a + Rabs b) / 2) with (Rabs a / 2 + Rabs b / 2) by field. rewrite cos_plus.
  assert (CA : forall x, cos (Rabs x / 2) = cos (x / 2)). { intros x. unfold Rabs. destruct (Rcase_abs x); [|reflexivity]. replace (- x / 2) with (- (x / 2)) by field. apply cos_neg. }
  assert (SA : forall x, Rabs x <= PI -> sin (Rabs x / 2) = Rabs (sin (x / 2))).
  { intros x Hx. assert (P : 0 <= sin (Rabs x / 2)) by (apply sin_ge_0; pose proof (Rabs_pos x); lra). unfold Rabs in P |- * at 1. destruct (Rcase_abs x) as [N|N].
    - replace (- x / 2) with (- (x / 2)) in * by field. rewrite sin_neg in *. rewrite Rabs_left1; lra.
    - rewrite Rabs_right; lra. }
  rewrite !CA, !SA by lra. rewrite <- Rabs_mult. set (u := sin (a / 2) * sin (b / 2)). assert (u * dot n k <= Rabs u); [|lra].
  unfold Rabs. destruct (Rcase_abs u); nra.
Qed.
Lemma turn_axis a m1 m2 p q : dot a a = 1 -> m1 + m2 <= PI -> turn_within m1 p -> turn_within m2 q -> within (m1 + m2) a (rotate a (qmul p q)).
Proof.
  intros U M Hp Hq. pose proof (turn_unit _ _ Hp) as Up. pose proof (turn_unit _ _ Hq) as Uq. assert (UR : qunit (qmul p q)) by now apply qunit_mul.
  split; [exact U|]. split; [now rewrite rotate_dot|]. set (r := qmul p q) in *.
  assert (E : dot a (rotate a r) = 2 * (qw r * qw r) - qnorm2 r + (qnorm2 r - 2 * (qw r * qw r)) * (1 - dot a a) + 2 * (dot (qvec r) a * dot (qvec r) a)) by (destruct r as [r0 r1 r2 r3]; vring).
  rewrite E, U, UR. destruct Hp as (n & al & Un & La & Hp), Hq as (k & be & Uk & Lb & Hq).
  pose proof (turn_product n al k be m1 m2 Un Uk La Lb M) as T. assert (W2 : qw r * qw r = qw (qmul (turn n al) (turn k be)) * qw (qmul (turn n al) (turn k be))).
  { unfold r. destruct Hp as [->| ->], Hq as [->| ->]; unfold turn, qneg; vring. }
  rewrite W2. pose proof (Rabs_pos al). pose proof (Rabs_pos be). assert (P : 0 <= cos ((m1 + m2) / 2)) by (apply cos_ge_0; lra).
  replace (m1 + m2) with (2 * ((m1 + m2) / 2)) at 1 by field. rewrite cos_2a_cos. set (c := cos ((m1 + m2) / 2)) in *. set (w := qw (qmul (turn n al) (turn k be))) in *.
  pose proof (Rle_0_sqr (dot (qvec r) a)) as Q. unfold Rsqr in Q. assert (c * c <= w * w) by (apply Rmult_le_compat; lra). lra.
Qed.
Lemma deg_lt x : 0 <= x < 180 -> 0 <= deg x <= PI /\ deg x <> PI.
Proof. intros H. pose proof PI_RGT_0. unfold deg. split; [split|]; nra. Qed.

Lemma nth_seq i n : (i < n)%nat -> nth_error (seq 0 n) i = Some i.
Proof. intros H. rewrite nth_error_nth' with (d := 0%nat) by now rewrite seq_length. now rewrite seq_nth. Qed.
Lemma fst_combine {A B} : forall (l : list A) (r : list B), length l = length r -> map fst (combine l r) = l.
Proof. induction l as [|a l IH]; intros [|b r] H; try discriminate; [reflexivity|]. cbn [combine map fst]. f_equal. apply IH. cbn in H. lia. Qed.
Section Axes.
Context {K P O : Type}.
Notation rsys := (System R (plink (params P)) geometry O).
Variable W : widths.
Variable gauss : R -> R.
Variable rr_axis : string -> params P -> result vec3.

(** as noise and flips leave them *)
Definition noised (noisy : bool) (N : nat) (b o : string * list vec3) : Prop :=
  fst o = fst b /\ forall ax, snd b = repeat ax N -> length (snd o) = N /\ forall u, In u (snd o) -> (noisy = false -> u = ax) /\ (dot ax ax = 1 -> within (7 * PI / 180) ax u).
Lemma quats_length (g : rng K) key N m : length (quats_random g gauss key N m) = N.
Proof. unfold quats_random. now rewrite map_length, seq_length. Qed.
Lemma in_zipwith {A B C} (f : A -> B -> C) l r c : In c (zipwith f l r) -> exists a b, In a l /\ In b r /\ c = f a b.
Proof.
  revert r. induction l as [|a l IH]; intros [|b r] H; cbn [zipwith In] in H; try contradiction.
  - destruct H as [<-|H]; [exists a, b; cbn; auto|]. destruct (IH r H) as (a' & b' & A1 & B1 & E). exists a', b'. cbn. auto.
Qed.
Lemma noisy_spec (g : rng K) N X : forall key, Forall2 (noised true N) X (snd (noisy_axes gauss g key N X)).
Proof.
  induction X as [|[name axes] r IH]; intros key; cbn [noisy_axes]; [constructor|]. destruct (noisy_axes gauss g (r_split g key 3 0) N r) as [key' r'] eqn:E. cbn [snd]. constructor.
  - split; [reflexivity|]. cbn [snd]. intros ax ->. pose proof (quats_length g (r_split g key 3 2) N (deg 2)) as LQ. split.
    + rewrite zipwith_length, repeat_length, LQ. apply Nat.min_id.
    + intros u Hu. apply in_zipwith in Hu. destruct Hu as (a & n & Ha & Hn & ->). apply repeat_spec in Ha. subst a. split; [discriminate|]. intros U.
      unfold quats_random in Hn. apply in_map_iff in Hn. destruct Hn as (i & <- & _). destruct (deg_lt 2 ltac:(lra)) as [D1 D2], (deg_lt 5 ltac:(lra)) as [D3 D4].
      replace (7 * PI / 180) with (deg 2 + deg 5) by (unfold deg; field). apply turn_axis; [exact U| | |].
      * unfold deg. pose proof PI_RGT_0. lra.
      * apply random_turn; [exact D1|contradiction].
      * unfold quat_random. apply random_turn; [exact D3|contradiction].
  - specialize (IH (r_split g key 3 0)). rewrite E in IH. exact IH.
Qed.
Lemma flip_spec (g : rng K) flip N : forall ps X key, length ps = length X ->
  Forall2 (fun pb o => fst o = fst (snd pb) /\ (fst pb = (-1)%Z -> snd o = repeat vzero N) /\
    (fst pb <> (-1)%Z -> exists sg, (sg = 1 \/ flip = true /\ sg = -1) /\ snd o = map (vscale sg) (snd (snd pb)))) (combine ps X) (flip_axes g key flip N ps X).
Proof.
  assert (V1 : forall l, map (vscale 1) l = l) by (intros l; rewrite <- (map_id l) at 2; apply map_ext; intros v; apply vscale_1).
  induction ps as [|p ps IH]; intros [|[name axes] r] key L; cbn [flip_axes combine]; try discriminate; [constructor|]. cbn [length] in L.
  destruct (Z.eqb_spec p (-1)) as [->|Np].
  - constructor; [|apply IH; lia]. cbn [fst snd]. split; [reflexivity|]. split; [reflexivity|]. intros []. reflexivity.
  - destruct flip.
    + constructor; [|apply IH; lia]. cbn [fst snd]. split; [reflexivity|]. split; [intros; contradiction|]. intros _. destruct (r_int g (r_split g key 2 1) 0 2 =? 0)%nat.
      * exists 1. split; [now left|reflexivity].
      * exists (-1). split; [right; auto|reflexivity].
    + constructor; [|apply IH; lia]. cbn [fst snd]. split; [reflexivity|]. split; [intros; contradiction|]. intros _. exists 1. split; [now left|]. now rewrite V1.
Qed.
(** the axes before noise and flips *)
Definition plain_axes (s : rsys) (x : traj) (sx : rsys) (from_sys : bool) := if from_sys then joint_axes_from_sys rr_axis s (length (tr_rows x)) else joint_axes_from_xs W s x sx.
Lemma features_of (g : rng K) key s x sx kw X B : wf W s -> plain_axes s x sx (a_from_sys kw) = Ok B -> map fst B = link_names s -> joint_axes W gauss rr_axis g key s x sx kw = Ok X ->
  map fst X = link_names s /\
  forall i nm p, nth_error (link_names s) i = Some nm -> nth_error (link_parents s) i = Some p -> exists out, nth_error X i = Some (nm, out) /\
    (p = (-1)%Z -> out = repeat vzero (length (tr_rows x))) /\
    (p <> (-1)%Z -> forall ax, nth_error B i = Some (nm, repeat ax (length (tr_rows x))) -> reported (a_noisy kw) (a_flip kw) (length (tr_rows x)) ax out).
Proof.
  intros WF EB NB E. unfold joint_axes in E. unfold plain_axes in EB. rewrite EB in E. cbn [bind] in E. set (N := length (tr_rows x)) in *.
  assert (NZ : exists key' Y, (if a_noisy kw then noisy_axes gauss g key N B else (key, B)) = (key', Y) /\ Forall2 (noised (a_noisy kw) N) B Y).
  { destruct (a_noisy kw).
    - pose proof (noisy_spec g N B key) as F. destruct (noisy_axes gauss g key N B) as [key' Y]. exists key', Y. split; [reflexivity|exact F].
    - exists key, B. split; [reflexivity|]. assert (RF : forall b, noised false N b b).
      { intros b. split; [reflexivity|]. intros ax ->. split; [apply repeat_length|]. intros u Hu. apply repeat_spec in Hu. subst u. split; [reflexivity|]. intros U. split; [exact U|]. split; [exact U|]. rewrite U. apply COS_bound. }
      clear - RF. induction B; constructor; auto. }
  destruct NZ as (key' & Y & EN & FN). rewrite EN in E. injection E as <-.
  assert (LB : length B = length (link_names s)) by (rewrite <- NB; symmetry; apply map_length). pose proof (Forall2_length _ _ _ FN) as LY.
  assert (LP : length (link_parents s) = length Y). { pose proof (wf_names _ _ WF) as X. unfold num_links in X. lia. }
  pose proof (flip_spec g (a_flip kw) N (link_parents s) Y key' LP) as FF. pose proof (Forall2_length _ _ _ FF) as LF. rewrite combine_length in LF.
  assert (AT : forall i nm p, nth_error (link_names s) i = Some nm -> nth_error (link_parents s) i = Some p -> exists b y o, nth_error B i = Some b /\ nth_error Y i = Some y /\ nth_error (flip_axes g key' (a_flip kw) N (link_parents s) Y) i = Some o /\ fst b = nm /\ noised (a_noisy kw) N b y /\
    fst o = fst y /\ (p = (-1)%Z -> snd o = repeat vzero N) /\ (p <> (-1)%Z -> exists sg, (sg = 1 \/ a_flip kw = true /\ sg = -1) /\ snd o = map (vscale sg) (snd y))).
  { intros i nm p Hn Hp. assert (Hi : (i < length B)%nat) by (rewrite LB; apply nth_error_Some; congruence). destruct (nth_error B i) as [b|] eqn:Eb; [|apply nth_error_None in Eb; lia].
    destruct (Forall2_nth _ _ _ FN i b Eb) as (y & Ey & Q). assert (EC : nth_error (combine (link_parents s) Y) i = Some (p, y)) by now apply nth_error_combine_Some.
    destruct (Forall2_nth _ _ _ FF i (p, y) EC) as (o & Eo & A1 & A2 & A3). exists b, y, o. cbn [fst snd] in *.
    assert (fst b = nm) by (assert (X : nth_error (map fst B) i = Some (fst b)) by (now rewrite nth_error_map, Eb); rewrite NB, Hn in X; now injection X). auto 10. }
  split.
  - apply nth_error_ext. intros i. rewrite nth_error_map. destruct (nth_error (link_names s) i) as [nm|] eqn:Hn.
    + assert (Hi : (i < length (link_parents s))%nat) by (rewrite LP, <- LY, LB; apply nth_error_Some; congruence). destruct (nth_error (link_parents s) i) as [p|] eqn:Hp; [|apply nth_error_None in Hp; lia].
      destruct (AT i nm p Hn Hp) as (b & y & o & _ & _ & -> & A & [Q _] & B1 & _). cbn [option_map]. congruence.
    + apply nth_error_None in Hn. destruct (nth_error (flip_axes _ _ _ _ _ _) i) eqn:Ho; [|reflexivity]. exfalso. assert (i < length (flip_axes g key' (a_flip kw) N (link_parents s) Y))%nat by (apply nth_error_Some; congruence). lia.
  - intros i nm p Hn Hp. destruct (AT i nm p Hn Hp) as (b & y & [on out] & Eb & Ey & Eo & A & [Q1 Q2] & B1 & B2 & B3). cbn [fst snd] in *. exists out. split; [congruence|]. split; [exact B2|].
    intros Np ax Hax. rewrite Eb in Hax. injection Hax as ->. cbn [snd fst] in *. destruct (Q2 ax eq_refl) as [L C]. destruct (B3 Np) as (sg & SG & ->). split; [now rewrite map_length|].
    exists sg. split; [exact SG|]. intros v Hv. apply in_map_iff in Hv. destruct Hv as (u & <- & Hu). exists u. split; [reflexivity|]. now apply C.
Qed.

Lemma motion_value (g : rng K) key (s : rsys) x (sx : rsys) kw : wf W s -> wf W sx -> (0 < num_links s)%nat -> poses_of sx x -> (0 < length (tr_rows x))%nat ->
  (forall nm, In nm (link_names s) -> In nm (link_names sx)) -> a_from_sys kw = false ->
  exists X, joint_axes W gauss rr_axis g key s x sx kw = Ok X /\ map fst X = link_names s /\
  forall i nm p, nth_error (link_names s) i = Some nm -> nth_error (link_parents s) i = Some p -> exists out, nth_error X i = Some (nm, out) /\
    (p = (-1)%Z -> out = repeat vzero (length (tr_rows x))) /\
    forall ip nmp j jp qs ax, p = Z.of_nat ip -> nth_error (link_names s) ip = Some nmp -> nth_error (link_names sx) j = Some nm -> nth_error (link_names sx) jp = Some nmp ->
      length qs = length (tr_rows x) ->
      (forall k row xi xp q, nth_error (tr_rows x) k = Some row -> nth_error row j = Some xi -> nth_error row jp = Some xp -> nth_error qs k = Some q -> rel_rot xi xp = q) ->
      mean_axis qs = Ok ax -> reported (a_noisy kw) (a_flip kw) (length (tr_rows x)) ax out.
Proof.
  intros WF WFx NZ PX T0 SUB FS. destruct (C45_match W s WF sx x WFx NZ PX SUB) as (ys & EM & LY & RY & FY & V).
  assert (AT : forall k i j nm row xi, nth_error (tr_rows x) k = Some row -> nth_error (link_names s) i = Some nm -> nth_error (link_names sx) j = Some nm -> nth_error row j = Some xi -> nth i (nth k (tr_rows ys) []) t_zero = xi).
  { intros k i j nm row xi Hk Hi Hj Hx. destruct (V i j nm k row xi Hi Hj Hk Hx) as (row' & E1 & E2). rewrite (nth_error_nth _ _ _ E1). exact (nth_error_nth _ _ _ E2). }
  assert (PY : poses_of s ys).
  { split; [exact LY|]. apply Forall_forall. intros row' Hr. rewrite Forall_forall in FY. split; [now apply FY|]. destruct (In_nth_error _ _ Hr) as (k & Hk). apply Forall_forall. intros xi Hx. destruct (In_nth_error _ _ Hx) as (i & Hi).
    assert (Li : (i < length (link_names s))%nat). { rewrite (wf_names _ _ WF). change (i < num_links s)%nat. rewrite <- (FY row' Hr). apply nth_error_Some. congruence. }
    destruct (nth_error (link_names s) i) as [nm|] eqn:Hn; [|apply nth_error_None in Hn; lia]. destruct (In_nth_error _ _ (SUB nm (nth_error_In _ _ Hn))) as (j & Hj).
    assert (Lk : (k < length (tr_rows x))%nat) by (rewrite <- RY; apply nth_error_Some; congruence). destruct (nth_error (tr_rows x) k) as [row|] eqn:Er; [|apply nth_error_None in Er; lia].
    destruct PX as [_ PX]. rewrite Forall_forall in PX. destruct (PX row (nth_error_In _ _ Er)) as [Lr Ur]. assert (Lj : (j < length row)%nat). { rewrite Lr. unfold num_links. rewrite <- (wf_names _ _ WFx). apply nth_error_Some. congruence. }
    destruct (nth_error row j) as [xj|] eqn:Ej; [|apply nth_error_None in Ej; lia]. destruct (V i j nm k row xj Hn Hj Er Ej) as (r2 & A1 & A2). assert (r2 = row') by congruence. subst r2. assert (xi = xj) by congruence. subst xi.
    rewrite Forall_forall in Ur. apply Ur. eapply nth_error_In, Ej. }
  set (qs := fun i => map (fun row => t_rot (rel s row i)) (tr_rows ys)).
  assert (UZ : exists t, unzip_xs W s ys = Ok t /\ forall i, (i < num_links s)%nat -> map t_rot (link_traj (snd t) i) = qs i).
  { rewrite (unzip_ok W s WF ys PY). eexists. split; [reflexivity|]. intros i Hi. cbn [snd]. unfold link_traj, qs. cbn [tr_rows]. rewrite !map_map. apply map_ext. intros row. rewrite (t2_nth s row i Hi). reflexivity. }
  destruct UZ as (t & EU & HQ).
  assert (MA : forall i, exists a, mean_axis (qs i) = Ok a).
  { intros i. unfold mean_axis. destruct (map axis_raw (qs i)) as [|c l] eqn:E; [|eauto]. apply (f_equal (@length vec3)) in E. unfold qs in E. rewrite !map_length, RY in E. cbn in E. lia. }
  assert (AX : exists axes, mapM (fun i => mean_axis (map t_rot (link_traj (snd t) i))) (seq 0 (num_links s)) = Ok axes /\ length axes = num_links s /\ forall i a, nth_error axes i = Some a -> mean_axis (qs i) = Ok a).
  { destruct (C_Stream.mapM_exists (fun i => mean_axis (map t_rot (link_traj (snd t) i))) (seq 0 (num_links s))) as (axes & E).
    - intros i Hi. apply in_seq in Hi. rewrite HQ by lia. apply MA.
    - exists axes. split; [exact E|]. pose proof (mapM_Ok_length _ _ _ E) as L. rewrite seq_length in L. split; [lia|]. intros i a Ha. apply mapM_Ok_iff in E. destruct (Forall2_nth_r _ _ _ _ _ E Ha) as (i' & A1 & A2).
      assert (Li : (i < num_links s)%nat) by (rewrite <- L; apply nth_error_Some; congruence). rewrite nth_seq in A1 by lia. injection A1 as <-. now rewrite HQ in A2 by lia. }
  destruct AX as (axes & EA & LA & HA).
  set (B := combine (link_names s) (map (fun a => repeat a (length (tr_rows ys))) axes)).
  assert (EB : plain_axes s x sx (a_from_sys kw) = Ok B). { unfold plain_axes. rewrite FS. unfold joint_axes_from_xs. rewrite EM. cbn [bind]. rewrite EU. cbn [bind]. rewrite EA. reflexivity. }
  assert (NB : map fst B = link_names s). { unfold B. apply fst_combine. rewrite map_length, LA. apply (wf_names _ _ WF). }
  assert (EX : exists X, joint_axes W gauss rr_axis g key s x sx kw = Ok X). { unfold joint_axes. unfold plain_axes in EB. rewrite EB. cbn [bind]. destruct (if a_noisy kw then _ else _). eauto. }
  destruct EX as (X & EX). exists X. split; [exact EX|]. destruct (features_of g key s x sx kw X B WF EB NB EX) as [NX F]. split; [exact NX|]. intros i nm p Hn Hp. destruct (F i nm p Hn Hp) as (out & A1 & A2 & A3). exists out. split; [exact A1|]. split; [exact A2|].
  intros ip nmp j jp rs ax -> Hip Hj Hjp LS AB EM'. apply A3; [lia|]. assert (Li : (i < num_links s)%nat) by (unfold num_links; apply nth_error_Some; congruence).
  destruct (nth_error axes i) as [ai|] eqn:Ei; [|apply nth_error_None in Ei; lia]. unfold B. rewrite RY. erewrite nth_error_combine_Some; [reflexivity|exact Hn|]. rewrite nth_error_map, Ei. cbn [option_map]. do 2 f_equal.
  apply HA in Ei. assert (EQ : qs i = rs); [|rewrite EQ in Ei; congruence]. apply nth_error_ext. intros k. unfold qs. rewrite nth_error_map.
  destruct (nth_error rs k) as [q|] eqn:Hs.
  - assert (Lk : (k < length (tr_rows x))%nat) by (rewrite <- LS; apply nth_error_Some; congruence). destruct (nth_error (tr_rows x) k) as [row|] eqn:Er; [|apply nth_error_None in Er; lia].
    destruct (nth_error (tr_rows ys) k) as [row'|] eqn:Er'; [|apply nth_error_None in Er'; lia].
    destruct PX as [_ PX]. rewrite Forall_forall in PX. destruct (PX row (nth_error_In _ _ Er)) as [Lr _]. assert (LNx : forall m z, nth_error (link_names sx) m = Some z -> exists xm, nth_error row m = Some xm).
    { intros m z Hz. assert (m < length row)%nat by (rewrite Lr; unfold num_links; rewrite <- (wf_names _ _ WFx); apply nth_error_Some; congruence). destruct (nth_error row m) eqn:Em; [eauto|apply nth_error_None in Em; lia]. }
    destruct (LNx j nm Hj) as (xi & Exi), (LNx jp nmp Hjp) as (xp & Exp). pose proof (AB k row xi xp q Er Exi Exp Hs) as Q.
    pose proof (AT k i j nm row xi Er Hn Hj Exi) as C1. pose proof (AT k ip jp nmp row xp Er Hip Hjp Exp) as C2. rewrite (nth_error_nth _ _ _ Er') in C1, C2.
    assert (RL : rel s row' i = t_mul xi (t_inv xp)). { unfold rel, pr_. rewrite (nth_error_nth _ _ _ Hp). destruct (Z.eqb_spec (Z.of_nat ip) (-1)); [lia|]. rewrite Nat2Z.id, C1, C2. reflexivity. }
    cbn [option_map]. rewrite RL. f_equal. exact Q.
  - apply nth_error_None in Hs. rewrite (proj2 (nth_error_None (tr_rows ys) k)) by lia. reflexivity.
Qed.
(** Every link connected to the world has axis zero.  For the others, if the recorded orientation relative to the parent
    is at all times a rotation about [a], and at the first time a proper one, then [a] is reported, with the sign of the
    first rotation. *)
Theorem C69_from_motion (g : rng K) key (s : rsys) x (sx : rsys) kw : wf W s -> wf W sx -> (0 < num_links s)%nat -> poses_of sx x -> (0 < length (tr_rows x))%nat ->
  (forall nm, In nm (link_names s) -> In nm (link_names sx)) -> a_from_sys kw = false ->
  exists X, joint_axes W gauss rr_axis g key s x sx kw = Ok X /\ map fst X = link_names s /\
  forall i nm p, nth_error (link_names s) i = Some nm -> nth_error (link_parents s) i = Some p -> exists out, nth_error X i = Some (nm, out) /\
    (p = (-1)%Z -> out = repeat vzero (length (tr_rows x))) /\
    forall ip nmp j jp a ss s0, p = Z.of_nat ip -> nth_error (link_names s) ip = Some nmp -> nth_error (link_names sx) j = Some nm -> nth_error (link_names sx) jp = Some nmp ->
      dot a a = 1 -> length ss = length (tr_rows x) -> nth_error ss 0 = Some s0 -> s0 <> 0 ->
      (forall k row xi xp sk, nth_error (tr_rows x) k = Some row -> nth_error row j = Some xi -> nth_error row jp = Some xp -> nth_error ss k = Some sk -> about a sk (rel_rot xi xp)) ->
      reported (a_noisy kw) (a_flip kw) (length (tr_rows x)) (vscale (signum s0) a) out.
Proof.
  intros WF WFx NZ PX T0 SUB FS. destruct (motion_value g key s x sx kw WF WFx NZ PX T0 SUB FS) as (X & E & NX & F). exists X. split; [exact E|]. split; [exact NX|].
  intros i nm p Hn Hp. destruct (F i nm p Hn Hp) as (out & A1 & A2 & A3). exists out. split; [exact A1|]. split; [exact A2|]. intros ip nmp j jp a ss s0 Hip Hnp Hj Hjp U LS H0 N0 AB.
  set (qs := map (fun row => rel_rot (nth j row t_zero) (nth jp row t_zero)) (tr_rows x)). apply (A3 ip nmp j jp qs); [exact Hip|exact Hnp|exact Hj|exact Hjp|apply map_length| |].
  - intros k row xi xp q Er Exi Exp Hq. unfold qs in Hq. rewrite nth_error_map, Er in Hq. injection Hq as <-. now rewrite (nth_error_nth _ _ _ Exi), (nth_error_nth _ _ _ Exp).
  - apply (C69_estimate a ss qs s0 U); [|exact H0|exact N0]. apply C_Xml.Forall2_nth_iff. unfold qs. rewrite map_length. split; [exact LS|]. intros k sk q Hs Hq. rewrite nth_error_map in Hq. destruct (nth_error (tr_rows x) k) as [row|] eqn:Er; [|discriminate]. injection Hq as <-.
    destruct PX as [_ PX]. rewrite Forall_forall in PX. destruct (PX row (nth_error_In _ _ Er)) as [Lr _]. assert (LNx : forall m z, nth_error (link_names sx) m = Some z -> nth_error row m = Some (nth m row t_zero)).
    { intros m z Hz. apply nth_error_nth'. rewrite Lr; unfold num_links; rewrite <- (wf_names _ _ WFx); apply nth_error_Some; congruence. }
    exact (AB k row _ _ sk Er (LNx j nm Hj) (LNx jp nmp Hjp) Hs).
Qed.

(** Axes taken from the system: those of the joints. *)
Theorem C69_from_system (g : rng K) key (s : rsys) x (sx : rsys) kw X : wf W s -> a_from_sys kw = true -> joint_axes W gauss rr_axis g key s x sx kw = Ok X ->
  map fst X = link_names s /\
  forall i nm p typ l, nth_error (link_names s) i = Some nm -> nth_error (link_parents s) i = Some p -> nth_error (link_types s) i = Some typ -> nth_error (links s) i = Some l ->
    exists out, nth_error X i = Some (nm, out) /\ (p = (-1)%Z -> out = repeat vzero (length (tr_rows x))) /\
    (p <> (-1)%Z -> forall a, (hinge_axis typ = Some a \/ ((typ = "rr" \/ substring 0 6 typ = "rr_imp")%string /\ rr_axis typ (pl_params l) = Ok a)) ->
       reported (a_noisy kw) (a_flip kw) (length (tr_rows x)) a out).
Proof.
  intros WF FS E. assert (EB : exists axes, mapM (fun tl => axis_of rr_axis (fst tl) (snd tl)) (combine (link_types s) (links s)) = Ok axes).
  { unfold joint_axes in E. rewrite FS in E. apply bind_Ok in E. destruct E as (B & E & _). unfold joint_axes_from_sys in E. apply bind_Ok in E. destruct E as (axes & E & _). eauto. }
  destruct EB as (axes & EA). set (B := combine (link_names s) (map (fun a => repeat a (length (tr_rows x))) axes)).
  assert (EB : plain_axes s x sx (a_from_sys kw) = Ok B) by (unfold plain_axes; rewrite FS; unfold joint_axes_from_sys; rewrite EA; reflexivity).
  assert (LA : length axes = num_links s). { apply mapM_Ok_length in EA. rewrite EA, combine_length, (wf_types _ _ WF), (wf_links _ _ WF). apply Nat.min_id. }
  assert (NB : map fst B = link_names s). { unfold B. apply fst_combine. rewrite map_length, LA. apply (wf_names _ _ WF). }
  destruct (features_of g key s x sx kw X B WF EB NB E) as [NX F]. split; [exact NX|]. intros i nm p typ l Hn Hp Ht Hl. destruct (F i nm p Hn Hp) as (out & A1 & A2 & A3). exists out. split; [exact A1|]. split; [exact A2|].
  intros Np a Ha. apply (A3 Np). apply mapM_Ok_iff in EA. destruct (Forall2_nth _ _ _ EA i (typ, l)) as (b & Eb & Q); [now apply nth_error_combine_Some|]. cbn [fst snd] in Q.
  unfold B. erewrite nth_error_combine_Some; [reflexivity|exact Hn|]. rewrite nth_error_map, Eb. cbn [option_map]. do 2 f_equal.
  unfold axis_of in Q. destruct Ha as [Ha|[Ha Hr]].
  - unfold hinge_axis in Ha. destruct (String.eqb typ "rx"); [congruence|]. destruct (String.eqb typ "ry"); [congruence|]. destruct (String.eqb typ "rz"); congruence.
  - destruct Ha as [->|Ha]; [cbn in Q; congruence|]. destruct (String.eqb_spec typ "rx") as [->|_]; [discriminate|]. destruct (String.eqb_spec typ "ry") as [->|_]; [discriminate|]. destruct (String.eqb_spec typ "rz") as [->|_]; [discriminate|].
    destruct (String.eqb typ "rr"); [congruence|]. rewrite Ha in Q. cbn in Q. congruence.
Qed.
End Axes.

(** ** Joints and recordings *)
(** A hinge turns about the axis it is reported with, which is the same in the frames of both links. *)
Theorem C69_hinge {P} typ a (jm : joint_model P) th pr : hinge_axis typ = Some a -> builtin_table typ = Some jm ->
  dot a a = 1 /\ t_rot (jm_transform jm [th] pr) = Q4 (cos (th / 2)) (- sin (th / 2) * vx a) (- sin (th / 2) * vy a) (- sin (th / 2) * vz a) /\
  about a (- sin (th / 2)) (t_rot (jm_transform jm [th] pr)) /\ rotate a (t_rot (jm_transform jm [th] pr)) = a.
Proof.
  intros HA HJ. assert (X : dot a a = 1 /\ t_rot (jm_transform jm [th] pr) = quat_rot_axis a th).
  { unfold hinge_axis in HA. destruct (String.eqb_spec typ "rx") as [->|_]; [|destruct (String.eqb_spec typ "ry") as [->|_]; [|destruct (String.eqb_spec typ "rz") as [->|_]; [|discriminate]]];
      injection HA as <-; cbn in HJ; injection HJ as <-; (split; [unfold dot; cbn; ring|reflexivity]). }
  destruct X as [U E]. split; [exact U|]. rewrite E, rot_axis_unit by exact U. unfold rot. replace (- th / 2) with (- (th / 2)) by field. rewrite cos_neg, sin_neg. split; [reflexivity|]. split; [reflexivity|].
  set (q := Q4 _ _ _ _). assert (UQ : qnorm2 q = 1). { unfold qnorm2, qdot, q. cbn [qw qx qy qz]. pose proof (sin2_cos2 (th / 2)) as S. unfold Rsqr in S. replace 1 with (cos (th / 2) * cos (th / 2) + sin (th / 2) * sin (th / 2) * dot a a) by (rewrite U; lra). unfold dot. ring. }
  assert (R : rotate a q = vscale (cos (th / 2) * cos (th / 2) + sin (th / 2) * sin (th / 2) * dot a a) a) by (unfold q; vring).
  rewrite R, U. pose proof (sin2_cos2 (th / 2)) as S. unfold Rsqr in S. replace (cos (th / 2) * cos (th / 2) + sin (th / 2) * sin (th / 2) * 1) with 1 by lra. apply vscale_1.
Qed.
(** Simulated motion of a hinge without static rotation is a rotation about its axis, as C69_from_motion asks for. *)
Theorem C69_simulated {P O} (s s' : System R (plink (params P)) geometry O) q n xs i p typ a l th x xp : wf builtin_widths s -> q_size builtin_widths s = Ok n -> length q = n ->
  forward_kinematics_transforms builtin_widths builtin_table s q = Ok (xs, s') -> nth_error (link_types s) i = Some typ -> hinge_axis typ = Some a -> nth_error (links s) i = Some l ->
  nth_error (link_parents s) i = Some (Z.of_nat p) -> link_coords (qW builtin_widths) s q i [th] -> nth_error xs i = Some x -> nth_error xs p = Some xp -> tunit xp ->
  rel_rot x xp = qmul (Q4 (cos (th / 2)) (- sin (th / 2) * vx a) (- sin (th / 2) * vy a) (- sin (th / 2) * vz a)) (t_rot (pl_t1 l)) /\
  (t_rot (pl_t1 l) = qone -> about a (- sin (th / 2)) (rel_rot x xp)).
Proof.
  intros WF QS LQ FK HT HA HL HP HC HX HXP UP. destruct (C27_poses builtin_widths builtin_table s s' q n xs WF QS LQ FK) as (Lx & _ & F).
  destruct (F i l HL) as (x1 & t2 & E1 & PO & (typ' & l' & sl & pr & jm & J1 & J2 & J3 & J4 & J5 & ->) & _). assert (x1 = x) by congruence. subst x1. assert (typ' = typ) by congruence. subst typ'.
  assert (Lp : (p < num_links s)%nat) by (rewrite <- Lx; apply nth_error_Some; congruence). unfold num_links in Lp. rewrite <- (wf_links _ _ WF) in Lp. destruct (nth_error (links s) p) as [lp|] eqn:Ep; [|apply nth_error_None in Ep; lia].
  destruct (F p lp Ep) as (x2 & t3 & E2 & PP & _). assert (x2 = xp) by congruence. subst x2.
  inversion PO as [E|i0 p0 l0 t20 xp0 H1 H2 H3 H4 H5 H6]; [lia|]. apply Nat2Z.inj in H5. subst i0. assert (p0 = Z.of_nat p) by congruence. subst p0. assert (l0 = l) by congruence. subst l0.
  assert (xp0 = xp) by (eapply C27_pose_unique; eauto). subst xp0. destruct H3 as (typ' & l3 & sl' & pr' & jm' & K1 & K2 & K3 & K4 & K5 & ->). assert (typ' = typ) by congruence. subst typ'. assert (jm' = jm) by congruence. subst jm'.
  rewrite (coords_unique s _ _ _ _ _ K3 HC). destruct (C69_hinge typ a jm th pr' HA K5) as (_ & R' & AB & _).
  assert (RR : rel_rot (t_mul (t_mul (jm_transform jm [th] pr') (pl_t1 l)) xp) xp = qmul (t_rot (jm_transform jm [th] pr')) (t_rot (pl_t1 l))).
  { unfold rel_rot. cbn [t_mul t_rot]. rewrite <- qmul_assoc, qmul_inv_r by exact UP. apply qmul_1_r. }
  rewrite RR. split; [now rewrite R'|]. intros ->. rewrite qmul_1_r. exact AB.
Qed.

(** ** Cases *)
Definition arm_turns (qs : list quat) : traj := mkTraj 4 (map (fun q => [t_zero; Tr vzero q; t_zero; t_zero]) qs).
Lemma arm_poses qs : Forall qunit qs -> poses_of demo (arm_turns qs).
Proof.
  intros F. split; [reflexivity|]. cbn [arm_turns tr_rows]. apply Forall_forall. intros row Hr. apply in_map_iff in Hr. destruct Hr as (q & <- & Hq). split; [reflexivity|].
  rewrite Forall_forall in F. pose proof (F q Hq) as U. assert (U1 := qunit_one). repeat (apply Forall_cons; [first [exact U|exact U1]|]). apply Forall_nil.
Qed.
Lemma arm_value {K} (g : rng K) gauss rr_axis key kw qs ax : Forall qunit qs -> qs <> [] -> a_from_sys kw = false -> mean_axis qs = Ok ax ->
  exists X out, joint_axes builtin_widths gauss rr_axis g key demo (arm_turns qs) demo kw = Ok X /\ nth_error X 1 = Some ("arm"%string, out) /\ reported (a_noisy kw) (a_flip kw) (length qs) ax out.
Proof.
  intros F NE FS EM. assert (LT : length (tr_rows (arm_turns qs)) = length qs) by apply map_length.
  destruct (motion_value (O := unit) builtin_widths gauss rr_axis g key demo (arm_turns qs) demo kw demo_wf demo_wf) as (X & E & _ & H).
  - cbn. lia.
  - now apply arm_poses.
  - rewrite LT. destruct qs; [contradiction|cbn; lia].
  - auto.
  - exact FS.
  - destruct (H 1%nat "arm"%string 0%Z eq_refl eq_refl) as (out & A1 & _ & A3). exists X, out. split; [exact E|]. split; [exact A1|]. rewrite <- LT.
    apply (A3 0%nat "base"%string 1%nat 0%nat qs); [reflexivity|reflexivity|reflexivity|reflexivity|now rewrite LT| |exact EM].
    intros k row xi xp q Hr Hi Hp Hq. cbn [arm_turns tr_rows] in Hr. rewrite nth_error_map, Hq in Hr. injection Hr as <-. injection Hi as <-. injection Hp as <-. unfold rel_rot. cbn [t_rot t_zero]. change (qinv qone) with (Q4 1 (-0) (-0) (-0)). vring.
Qed.
(** hypotheses of C69_from_motion are met: the arm turns about y *)
Example C69_from_motion_nonvacuous {K} (g : rng K) gauss rr_axis key : exists X out,
  joint_axes builtin_widths gauss rr_axis g key demo (arm_turns [Q4 (4 / 5) 0 (- (3 / 5)) 0; Q4 1 0 0 0; Q4 (3 / 5) 0 (4 / 5) 0]) demo (mkAK true false true) = Ok X /\
  nth_error X 1 = Some ("arm"%string, out) /\ reported true true 3 (V3 0 (-1) 0) out.
Proof.
  apply (arm_value g gauss rr_axis key (mkAK true false true)); [|discriminate|reflexivity|].
  - repeat apply Forall_cons; [..|apply Forall_nil]; unfold qunit, qnorm2, qdot; cbn [qw qx qy qz]; field.
  - rewrite (C69_estimate (V3 0 1 0) [- (3 / 5); 0; 4 / 5] _ (- (3 / 5))); [|unfold dot; cbn; ring| |reflexivity|lra].
    + unfold signum. destruct (Rlt_dec (- (3 / 5)) 0); [|lra]. f_equal. unfold vscale. cbn [vx vy vz]. f_equal; ring.
    + repeat apply Forall2_cons; [..|apply Forall2_nil]; unfold about, qvec, vscale; cbn [qx qy qz vx vy vz]; f_equal; ring.
Qed.

(** C69.  Of a hinge that is at rest at first, no axis is found when later rotations cancel, although all are about one
    axis: the mean is zero, and jax divides zero by zero. *)
Theorem C69_rest_refuted : exists (s : System R (plink (params unit)) geometry unit) x a ss, wf builtin_widths s /\ poses_of s x /\ dot a a = 1 /\ length ss = length (tr_rows x) /\
  (exists k sk, nth_error ss k = Some sk /\ sk <> 0) /\
  (forall k row xi xp sk, nth_error (tr_rows x) k = Some row -> nth_error row 1 = Some xi -> nth_error row 0 = Some xp -> nth_error ss k = Some sk -> about a sk (rel_rot xi xp)) /\
  forall K (g : rng K) gauss rr_axis key, exists X, joint_axes builtin_widths gauss rr_axis g key s x s (mkAK false false false) = Ok X /\
    nth_error X 1 = Some ("arm"%string, repeat vzero (length (tr_rows x))).
Proof.
  set (qs := [Q4 1 0 0 0; Q4 0 0 1 0; Q4 0 0 (-1) 0]). assert (FU : Forall qunit qs) by (repeat apply Forall_cons; [..|apply Forall_nil]; unfold qunit, qnorm2, qdot; cbn [qw qx qy qz]; ring).
  exists demo, (arm_turns qs), (V3 0 1 0), [0; 1; -1]. split; [exact demo_wf|]. split; [now apply arm_poses|]. split; [unfold dot; cbn; ring|]. split; [reflexivity|]. split; [exists 1%nat, 1; split; [reflexivity|lra]|]. split.
  - intros [|[|[|k]]] row xi xp sk Hr Hi Hp Hs; cbn in Hr, Hs; try (injection Hr as <-; injection Hs as <-; cbn in Hi, Hp; injection Hi as <-; injection Hp as <-; unfold about, rel_rot, vscale; vunfold; f_equal; ring). destruct k; discriminate.
  - intros K g gauss rr_axis key. destruct (arm_value g gauss rr_axis key (mkAK false false false) qs vzero FU) as (X & out & E & H & LO & sg & _ & R); [discriminate|reflexivity| |].
    + assert (RA : forall s q, qvec q = vscale s (V3 0 1 0) -> axis_raw q = vscale (raw s) (V3 0 1 0)) by (intros s q Hq; apply axis_raw_about; [unfold dot; cbn; ring|exact Hq]).
      unfold mean_axis, qs. cbn [map]. rewrite (RA 0) by (unfold qvec, vscale; cbn [qx qy qz vx vy vz]; f_equal; ring). rewrite (RA 1) by (unfold qvec, vscale; cbn [qx qy qz vx vy vz]; f_equal; ring). rewrite (RA (-1)) by (unfold qvec, vscale; cbn [qx qy qz vx vy vz]; f_equal; ring).
      assert (R0 : raw 0 = 0) by (unfold raw; unfold Rdiv; ring). assert (R1 : raw (-1) = - raw 1) by (unfold raw; replace (-1) with (- (1)) by ring; rewrite Rabs_Ropp; unfold Rdiv; ring). rewrite R0, R1. f_equal.
      assert (AL : forall f, align (vscale 0 (V3 0 1 0)) (vscale f (V3 0 1 0)) = vscale f (V3 0 1 0)).
      { intros f. unfold align. replace (vadd (vscale 0 (V3 0 1 0)) (vscale f (V3 0 1 0))) with (vscale f (V3 0 1 0)) by vring. replace (vsub (vscale 0 (V3 0 1 0)) (vscale f (V3 0 1 0))) with (vscale (- f) (V3 0 1 0)) by vring.
        rewrite !vnorm_scale, Rabs_Ropp by (unfold dot; cbn; ring). destruct (Rlt_dec (Rabs f) (Rabs f)); [lra|reflexivity]. }
      rewrite !AL. unfold vmean. cbn [fold_right length]. replace (vadd _ _) with vzero by vring. unfold vscale, vzero. cbn [vx vy vz]. f_equal; ring.
    + exists X. split; [exact E|]. rewrite H. do 2 f_equal. change (length (tr_rows (arm_turns qs))) with (length qs). rewrite <- LO. clear - R. revert R. induction out as [|v out IH]; intros R; [reflexivity|]. cbn [length repeat]. f_equal.
      * destruct (R v (or_introl eq_refl)) as (u & -> & U & _). rewrite U by reflexivity. unfold vscale, vzero. cbn [vx vy vz]. f_equal; ring.
      * apply IH. intros v' Hv. apply R. now right.
Qed.
(** C69.  The axis found for a hinge whose offset from the parent is rotated is not the axis of the joint: the arm of the demo
    system turns about y, its offset is rotated about x. *)
Theorem C69_tilted_refuted : exists (s : System R (plink (params unit)) geometry unit) x l ths, wf builtin_widths s /\ poses_of s x /\ nth_error (links s) 1 = Some l /\ nth_error (link_types s) 1 = Some "ry"%string /\ length ths = length (tr_rows x) /\
  (forall k row xi xp th, nth_error (tr_rows x) k = Some row -> nth_error row 1 = Some xi -> nth_error row 0 = Some xp -> nth_error ths k = Some th ->
     rel_rot xi xp = qmul (t_rot (rxyz_transform (V3 0 1 0) [th] tt)) (t_rot (pl_t1 l))) /\
  forall K (g : rng K) gauss rr_axis key, exists X out, joint_axes builtin_widths gauss rr_axis g key s x s (mkAK false false false) = Ok X /\
    nth_error X 1 = Some ("arm"%string, out) /\ forall v, In v out -> v <> V3 0 1 0 /\ v <> V3 0 (-1) 0.
Proof.
  set (q1 := Q4 (3 / 5) (4 / 5) 0 0). set (q2 := Q4 0 0 (- (3 / 5)) (4 / 5)).
  assert (FU : Forall qunit [q1; q2]) by (repeat apply Forall_cons; [..|apply Forall_nil]; unfold qunit, qnorm2, qdot, q1, q2; cbn [qw qx qy qz]; field).
  assert (UY : dot (V3 0 1 0) (V3 0 1 0) = 1) by (unfold dot; cbn; ring).
  exists demo, (arm_turns [q1; q2]), (demo_link (V3 1 0 0) qtilt [demo_box]), [0; PI]. split; [exact demo_wf|]. split; [now apply arm_poses|]. split; [reflexivity|]. split; [reflexivity|]. split; [reflexivity|]. split.
  - assert (S0 : t_rot (rxyz_transform (V3 0 1 0) [0] tt) = Q4 1 0 0 0). { cbn [rxyz_transform t_of_rot t_rot getR nth]. rewrite rot_axis_unit by exact UY. unfold rot. replace (- 0 / 2) with 0 by field. rewrite cos_0, sin_0. cbn [vx vy vz]. f_equal; ring. }
    assert (S1 : t_rot (rxyz_transform (V3 0 1 0) [PI] tt) = Q4 0 0 (-1) 0). { cbn [rxyz_transform t_of_rot t_rot getR nth]. rewrite rot_axis_unit by exact UY. unfold rot. replace (- PI / 2) with (- (PI / 2)) by field. rewrite cos_neg, sin_neg, cos_PI2, sin_PI2. cbn [vx vy vz]. f_equal; ring. }
    intros [|[|k]] row xi xp th Hr Hi Hp Hs; cbn in Hr, Hs; [..|destruct k; discriminate]; injection Hr as <-; injection Hs as <-; cbn in Hi, Hp; injection Hi as <-; injection Hp as <-.
    + rewrite S0. unfold rel_rot, demo_link, qtilt, q1. cbn [pl_t1 t_rot]. vunfold. f_equal; ring.
    + rewrite S1. unfold rel_rot, demo_link, qtilt, q2. cbn [pl_t1 t_rot]. vunfold. f_equal; ring.
  - intros K g gauss rr_axis key. assert (EM : exists ax, mean_axis [q1; q2] = Ok ax /\ vx ax <> 0).
    { unfold mean_axis. cbn [map]. eexists. split; [reflexivity|]. set (r1 := axis_raw q1). set (r2 := axis_raw q2).
      assert (X1 : vx r1 <> 0). { unfold r1, axis_raw. replace (qvec q1) with (vscale (4 / 5) (V3 1 0 0)) by (unfold q1, qvec, vscale; cbn [qx qy qz vx vy vz]; f_equal; ring). rewrite vnorm_scale by (unfold dot; cbn; ring). cbn [vscale vx]. rewrite Rabs_pos_eq by lra. pose proof eps_pos. assert (0 < / (4 / 5 + / 10 ^ 6)) by (apply Rinv_0_lt_compat; lra). nra. }
      assert (X2 : vx r2 = 0) by (unfold r2, axis_raw, q2, qvec, vscale; cbn [vx vy vz qx qy qz]; ring).
      assert (A1 : align r1 r1 = r1). { unfold align. destruct (Rlt_dec _ _) as [C|]; [|reflexivity]. exfalso. replace (vsub r1 r1) with vzero in C by (destruct r1; vring). replace (vnorm vzero) with 0 in C by (unfold vnorm; replace (dot vzero vzero) with 0 by (unfold dot, vzero; cbn; ring); now rewrite sqrt_0). pose proof (sqrt_pos (dot (vadd r1 r1) (vadd r1 r1))). unfold vnorm in C. lra. }
      assert (A2 : vx (align r1 r2) = 0) by (unfold align; destruct (Rlt_dec _ _); [unfold vneg; cbn [vx]; lra|exact X2]).
      rewrite A1. set (m := vmean [r1; align r1 r2]). assert (XM : vx m <> 0). { unfold m, vmean, vscale, vadd, vzero. cbn [fold_right length vx]. rewrite A2. replace (INR 2) with 2 by (cbn; ring). lra. }
      assert (NM : 0 < vnorm m). { unfold vnorm. apply sqrt_lt_R0. unfold dot. pose proof (Rlt_0_sqr _ XM) as Q. pose proof (Rle_0_sqr (vy m)) as Q1. pose proof (Rle_0_sqr (vz m)) as Q2. unfold Rsqr in *. lra. }
      cbn [vscale vx]. apply Rmult_integral_contrapositive_currified; [|exact XM]. apply Rinv_neq_0_compat. lra. }
    destruct EM as (ax & EM & XA). destruct (arm_value g gauss rr_axis key (mkAK false false false) [q1; q2] ax FU) as (X & out & E & H & _ & sg & SG & R); [discriminate|reflexivity|exact EM|].
    exists X, out. split; [exact E|]. split; [exact H|]. intros v Hv. destruct (R v Hv) as (u & -> & U & _). rewrite U by reflexivity. destruct SG as [->|[SG _]]; [|discriminate SG].
    split; intros C; apply (f_equal vx) in C; cbn [vscale vx] in C; lra.
Qed.
Example C69_from_system_nonvacuous {K} (g : rng K) gauss rr_axis key x : exists X out, joint_axes builtin_widths gauss rr_axis g key demo x demo (mkAK true true true) = Ok X /\
  nth_error X 1 = Some ("arm"%string, out) /\ reported true true (length (tr_rows x)) (V3 0 1 0) out.
Proof.
  assert (E : exists X, joint_axes builtin_widths gauss rr_axis g key demo x demo (mkAK true true true) = Ok X).
  { unfold joint_axes, joint_axes_from_sys. cbn [a_from_sys a_noisy a_flip demo link_types links combine mapM bind axis_of fst snd]. cbn [bind String.eqb substring Ascii.eqb Bool.eqb axis_of]. destruct (noisy_axes _ _ _ _ _). eauto. }
  destruct E as (X & E). destruct (C69_from_system (O := unit) builtin_widths gauss rr_axis g key demo x demo (mkAK true true true) X demo_wf eq_refl E) as (_ & H).
  destruct (H 1%nat "arm"%string 0%Z "ry"%string _ eq_refl eq_refl eq_refl eq_refl) as (out & A & _ & B). exists X, out. split; [exact E|]. split; [exact A|]. apply B; [discriminate|now left].
Qed.
Example C69_simulated_nonvacuous : exists xs s' x xp, forward_kinematics_transforms builtin_widths (@builtin_table unit) demo demo_q = Ok (xs, s') /\ nth_error xs 1 = Some x /\ nth_error xs 0 = Some xp /\ tunit xp /\
  link_coords (qW builtin_widths) demo demo_q 1 [1 / 3].
Proof.
  destruct (C27_total builtin_widths builtin_table demo demo_q _ demo_wf demo_known demo_q_size) as [T _]. destruct (T eq_refl) as (xs & s' & E).
  destruct (C27_poses builtin_widths builtin_table demo s' demo_q _ xs demo_wf demo_q_size eq_refl E) as (L & _ & F).
  destruct (F 1%nat _ eq_refl) as (x & t2 & E1 & _). destruct (F 0%nat _ eq_refl) as (xp & t3 & E2 & PO & J & _). exists xs, s', x, xp. split; [exact E|]. split; [exact E1|]. split; [exact E2|]. split.
  - inversion PO as [E0|i0 p0 l0 t20 xp0 H1 H2 H3 H4 H5 H6]. assert (i0 = 0%nat) by lia. subst i0. injection H1 as <-. injection H2 as <-. inversion H4 as [E0|i0 p1 l1 t21 xp1 G1 G2 G3 G4 G5 G6]; [|lia].
    subst xp xp0. apply tunit_mul; [|apply tunit_zero]. apply tunit_mul; [|apply qunit_one]. destruct H3 as (typ & l & sl & pr & jm & C1 & C2 & C3 & C4 & C5 & ->). injection C1 as <-. injection C5 as <-.
    assert (C3' : link_coords (qW builtin_widths) demo demo_q 0 [3/5; 0; 4/5; 0; 1; 2; 3]).
    { exists [7; 1; 4; 1]%nat, [[3/5; 0; 4/5; 0; 1; 2; 3]; [1/3]; [0; 3/5; 0; 4/5]; [2]]. split; [repeat apply Forall2_cons; try reflexivity; apply Forall2_nil|]. split; [split; reflexivity|reflexivity]. }
    rewrite (coords_unique demo _ _ _ _ _ C3 C3'). unfold tunit, qunit, qnorm2, qdot. cbn. field.
  - exists [7; 1; 4; 1]%nat, [[3/5; 0; 4/5; 0; 1; 2; 3]; [1/3]; [0; 3/5; 0; 4/5]; [2]]. split; [repeat apply Forall2_cons; try reflexivity; apply Forall2_nil|]. split; [split; reflexivity|reflexivity].
Qed.
