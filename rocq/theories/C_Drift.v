(** * C94: the orientation error is a distance, and errors add up along the chain of links. *)
From Coq Require Import Reals Lra String ZArith Lia Bool List.
From Verif Require Import Prelude M_Sys M_Math P_Math P_Trig P_Rot C_Rot C_Gym M_Target C_Xs M_Compose S_Sys P_Sys P_Delete P_Delete2 P_Inject X_Toy M_Predict S_Predict C_Predict S_Drift.
Import ListNotations.
Local Open Scope R_scope.

(** ** The distance *)
Lemma turn_angle p q : turn p q = rotation_angle (qmul (qinv p) q).
Proof. unfold turn, rotation_angle. replace (qdot p q) with (qw (qmul (qinv p) q)); [reflexivity|]. destruct p, q. vunfold. ring. Qed.
Lemma qdot_le p q : qunit p -> qunit q -> Rabs (qdot p q) <= 1.
Proof.
  intros Hp Hq. assert (H : qunit (qmul (qinv p) q)) by auto using qunit_mul, qunit_inv.
  replace (qdot p q) with (qw (qmul (qinv p) q)) by (destruct p, q; vunfold; ring). destruct (qmul (qinv p) q) as [w x y z]. revert H. unfold qunit. vunfold. intros H. apply Rabs_le. nra.
Qed.
Lemma half_range w : 0 <= w <= 1 -> 0 <= acos w <= PI / 2.
Proof.
  intros W. split; [apply acos_bound|]. pose proof PI_pos. pose proof (acos_bound w). destruct (Rle_dec (acos w) (PI / 2)); [auto|]. exfalso.
  assert (X : cos (acos w) < 0) by (apply cos_lt_0; lra). rewrite cos_acos in X by lra. lra.
Qed.
Lemma sin_half w : 0 <= w <= 1 -> sin (acos w) * sin (acos w) = 1 - w * w /\ 0 <= sin (acos w).
Proof.
  intros W. pose proof (sin2_cos2 (acos w)) as S2. unfold Rsqr in S2. rewrite cos_acos in S2 by lra. pose proof (half_range w W). pose proof PI_pos. split; [lra|apply sin_ge_0; lra].
Qed.
Lemma acos_le a t : 0 <= t <= PI -> -1 <= a <= 1 -> cos t <= a -> acos a <= t.
Proof.
  intros T A H. destruct (Rle_dec (acos a) t) as [|N]; [assumption|]. exfalso. pose proof (acos_bound a).
  assert (X : cos (acos a) < cos t) by (apply cos_decreasing_1; lra). rewrite cos_acos in X by lra. lra.
Qed.
Lemma cauchy3 a b : dot a b * dot a b <= dot a a * dot b b.
Proof.
  destruct a as [a0 a1 a2], b as [b0 b1 b2]. vunfold.
  assert (0 <= (a0 * b1 - a1 * b0) * (a0 * b1 - a1 * b0)) by apply Rle_0_sqr. assert (0 <= (a0 * b2 - a2 * b0) * (a0 * b2 - a2 * b0)) by apply Rle_0_sqr.
  assert (0 <= (a1 * b2 - a2 * b1) * (a1 * b2 - a2 * b1)) by apply Rle_0_sqr. lra.
Qed.
Lemma unit_split q : qunit q -> dot (qvec q) (qvec q) = 1 - qw q * qw q.
Proof. unfold qunit. destruct q. vunfold. lra. Qed.
Lemma rotation_angle_mul a b : qunit a -> qunit b -> rotation_angle (qmul a b) <= rotation_angle a + rotation_angle b.
Proof.
  intros Ha Hb. unfold rotation_angle. set (w := Rabs (qw a)). set (v := Rabs (qw b)). set (u := Rabs (qw (qmul a b))).
  assert (B : forall q, qunit q -> 0 <= Rabs (qw q) <= 1).
  { intros q Hq. split; [apply Rabs_pos|]. apply Rabs_le. destruct q. revert Hq. unfold qunit. vunfold. nra. }
  pose proof (B a Ha) as Bw. pose proof (B b Hb) as Bv. pose proof (B _ (qunit_mul _ _ Ha Hb)) as Bu. fold w in Bw. fold v in Bv. fold u in Bu.
  pose proof (half_range w Bw) as Hw. pose proof (half_range v Bv) as Hv. pose proof (half_range u Bu) as Hu.
  destruct (Rle_dec (PI / 2) (acos w + acos v)) as [L|L]; [lra|].
  assert (X : acos u <= acos w + acos v); [|lra]. pose proof PI_pos. apply acos_le; [lra|lra|]. rewrite cos_plus, !cos_acos by lra.
  destruct (sin_half w Bw) as (S1 & P1). destruct (sin_half v Bv) as (S2 & P2). set (sw := sin (acos w)) in *. set (sv := sin (acos v)) in *.
  assert (W2 : w * w = qw a * qw a) by (unfold w; rewrite <- Rabs_mult; apply Rabs_right; nra).
  assert (V2 : v * v = qw b * qw b) by (unfold v; rewrite <- Rabs_mult; apply Rabs_right; nra).
  assert (D : Rabs (dot (qvec a) (qvec b)) <= sw * sv).
  { pose proof (cauchy3 (qvec a) (qvec b)) as C. rewrite (unit_split a Ha), (unit_split b Hb) in C. rewrite <- W2, <- V2, <- S1, <- S2 in C.
    apply Rsqr_incr_0_var; [|nra]. unfold Rsqr. rewrite <- Rabs_mult. rewrite Rabs_right by nra. nra. }
  assert (E : qw (qmul a b) = qw a * qw b - dot (qvec a) (qvec b)) by (destruct a, b; vunfold; ring).
  unfold u. rewrite E. pose proof (Rabs_triang_inv (qw a * qw b) (dot (qvec a) (qvec b))) as T. rewrite Rabs_mult in T. fold w v in T. lra.
Qed.

Lemma sq4 a b c d : a * a + b * b + c * c + d * d = 0 -> a = 0 /\ b = 0 /\ c = 0 /\ d = 0.
Proof.
  intros H. assert (Q : forall x, 0 <= x * x) by (intros x; apply Rle_0_sqr). pose proof (Q a). pose proof (Q b). pose proof (Q c). pose proof (Q d).
  assert (Z : forall x, x * x = 0 -> x = 0) by (intros x E; apply Rmult_integral in E; tauto). repeat split; apply Z; lra.
Qed.
(** It is a distance between rotations, blind to the sign of quaternions, the same seen from any frame. *)
Theorem C94_distance p q r : qunit p -> qunit q -> qunit r ->
  0 <= turn p q <= PI /\ turn p q = turn q p /\ (turn p q = 0 <-> q = p \/ q = qneg p) /\ turn p r <= turn p q + turn q r /\
  turn (qmul r p) (qmul r q) = turn p q /\ turn (qmul p r) (qmul q r) = turn p q /\ turn (qinv p) (qinv q) = turn p q /\ turn p (qneg q) = turn p q.
Proof.
  intros Hp Hq Hr. pose proof (qdot_le p q Hp Hq) as L. pose proof (half_range (Rabs (qdot p q)) (conj (Rabs_pos _) L)) as HR. pose proof PI_pos.
  split; [unfold turn; lra|]. split; [unfold turn; f_equal; f_equal; f_equal; destruct p, q; vunfold; ring|]. split; [|split; [|split; [|split; [|split]]]].
  - split.
    + intros Z. assert (A0 : acos (Rabs (qdot p q)) = 0) by (unfold turn in Z; lra).
      assert (A1 : Rabs (qdot p q) = 1). { rewrite <- cos_0, <- A0. rewrite cos_acos; [reflexivity|]. pose proof (Rabs_pos (qdot p q)). lra. }
      assert (G : qdot p q = 1 \/ qdot p q = -1). { unfold Rabs in A1. destruct (Rcase_abs (qdot p q)); [right|left]; lra. }
      revert Hp Hq G. unfold qunit. clear. destruct p as [p0 p1 p2 p3], q as [q0 q1 q2 q3]. vunfold. intros Hp Hq [G|G]; [left|right].
      * assert (S : (p0 - q0) * (p0 - q0) + (p1 - q1) * (p1 - q1) + (p2 - q2) * (p2 - q2) + (p3 - q3) * (p3 - q3) = 0) by lra.
        apply sq4 in S. f_equal; lra.
      * assert (S : (p0 + q0) * (p0 + q0) + (p1 + q1) * (p1 + q1) + (p2 + q2) * (p2 + q2) + (p3 + q3) * (p3 + q3) = 0) by lra.
        apply sq4 in S. f_equal; lra.
    + assert (E : forall s, Rabs s = 1 -> qdot p q = s -> turn p q = 0). { intros s H1 E. unfold turn. rewrite E, H1, acos_1. ring. }
      intros [-> | ->]; [apply (E 1); [apply Rabs_R1|exact Hp]|]. apply (E (-1)); [rewrite Rabs_left; lra|]. revert Hp. unfold qunit. destruct p. vunfold. lra.
  - rewrite !turn_angle. replace (qmul (qinv p) r) with (qmul (qmul (qinv p) q) (qmul (qinv q) r)).
    + apply rotation_angle_mul; auto using qunit_mul, qunit_inv.
    + rewrite qmul_assoc. rewrite <- (qmul_assoc (qinv p) q (qinv q)), qmul_inv_r by auto. now rewrite qmul_1_r.
  - unfold turn. replace (qdot (qmul r p) (qmul r q)) with (qnorm2 r * qdot p q) by (destruct p, q, r; vunfold; ring). rewrite Hr, Rmult_1_l. reflexivity.
  - unfold turn. replace (qdot (qmul p r) (qmul q r)) with (qnorm2 r * qdot p q) by (destruct p, q, r; vunfold; ring). rewrite Hr, Rmult_1_l. reflexivity.
  - unfold turn. f_equal. f_equal. f_equal. destruct p, q; vunfold; ring.
  - unfold turn. replace (qdot p (qneg q)) with (- qdot p q) by (destruct p, q; vunfold; ring). now rewrite Rabs_Ropp.
Qed.
(** angle_error measures it, up to the tolerance for zero. *)
Theorem C94_measures p q : qunit p -> qunit q -> Rabs (angle_error p q - turn p q) <= 5 * atol.
Proof. intros Hp Hq. rewrite turn_angle. apply rotation_angle_all. auto using qunit_mul, qunit_inv. Qed.

(** ** Along the chain *)
Lemma abs_le_inv a b : Rabs a <= b -> - b <= a <= b.
Proof. intros H. pose proof (Rle_abs a). pose proof (Rle_abs (- a)) as N. rewrite Rabs_Ropp in N. lra. Qed.
Lemma turn_le p q : qunit p -> qunit q -> turn p q <= angle_error p q + 5 * atol.
Proof. intros Hp Hq. pose proof (C94_measures p q Hp Hq) as M. apply abs_le_inv in M. lra. Qed.
Lemma error_le p q : qunit p -> qunit q -> angle_error p q <= turn p q + 5 * atol.
Proof. intros Hp Hq. pose proof (C94_measures p q Hp Hq) as M. apply abs_le_inv in M. lra. Qed.
Section Chain.
Context {K L G O : Type} (W : widths) (no : System K L G O).
Hypothesis WN : wf W no.
Lemma unit_at row i x : row_ok no row -> nth_error row i = Some x -> qunit (t_rot x).
Proof. intros (_ & F) H. rewrite Forall_forall in F. apply (F x). eapply nth_error_In; eauto. Qed.
Lemma name_at i p : nth_error (link_parents no) i = Some p -> exists nm, nth_error (link_names no) i = Some nm.
Proof.
  intros H. assert (Hi : (i < length (link_names no))%nat). { rewrite (wf_names _ _ WN). apply nth_error_Some. congruence. }
  destruct (nth_error (link_names no) i) as [nm|] eqn:E; [eauto|]. apply nth_error_None in E. lia.
Qed.
Variables (trow hrow : list transform) (yhat : list (string * list quat)) (k : nat) (e : nat -> R).
Hypothesis RT : row_ok no trow.
Hypothesis RH : row_ok no hrow.
Hypothesis UY : forall nm qs, In nm (link_names no) -> dget String.eqb yhat nm = Some qs -> Forall qunit qs.
Hypothesis FO : follows no trow hrow yhat k.
Hypothesis PW : predicted_within no trow yhat k e.
Lemma drift i l : chain no i l -> forall x h, nth_error trow i = Some x -> nth_error hrow i = Some h ->
  turn (t_rot x) (t_rot h) <= sum (map (fun j => e j + 5 * atol) l).
Proof.
  induction 1 as [i Hp|i p l Hp HC IH]; intros x h Hx Hh; destruct (name_at _ _ Hp) as (nm & Hn);
    destruct (PW i nm Hn) as (qs & qhat & q & D & Eq & TG & AE); destruct FO as (_ & FL); destruct (FL i nm _ Hn Hp) as (qs' & q' & tr & hr & D' & Eq' & _ & RL & _ & RR);
    rewrite D in D'; injection D' as <-; rewrite Eq in Eq'; injection Eq' as <-; pose proof (unit_at _ _ _ RT Hx) as Ux; pose proof (unit_at _ _ _ RH Hh) as Uh;
    assert (Uq : qunit qhat) by (pose proof (UY nm qs (nth_error_In _ _ Hn) D) as F; rewrite Forall_forall in F; apply F; eapply nth_error_In; eauto).
  - change (-1 =? -1)%Z with true in RR. cbv iota in RR. cbn [map sum fold_right]. destruct RL as [(_ & RL)|(p & _ & _ & Hp' & _)]; [|rewrite Hp in Hp'; injection Hp' as Hp'; lia].
    rewrite Hh in RL. injection RL as <-. rewrite RR. destruct TG as [(_ & x' & Hx' & ->)|(p & _ & _ & Hp' & _)]; [|rewrite Hp in Hp'; injection Hp' as Hp'; lia].
    rewrite Hx in Hx'. injection Hx' as <-. pose proof (turn_le _ _ Ux Uq). lra.
  - destruct (Z.eqb_spec (Z.of_nat p) (-1)) as [X|_]; [lia|]. destruct RL as [(Hp' & _)|(p' & h' & hp & Hp' & Hh' & Hhp & ->)]; [rewrite Hp in Hp'; injection Hp' as Hp'; lia|].
    assert (p' = p) by (rewrite Hp in Hp'; injection Hp' as Hp'; lia). subst p'. rewrite Hh in Hh'. injection Hh' as <-.
    destruct TG as [(Hp2 & _)|(p' & x' & xp & Hp2 & Hx' & Hxp & ->)]; [rewrite Hp in Hp2; injection Hp2 as Hp2; lia|].
    assert (p' = p) by (rewrite Hp in Hp2; injection Hp2 as Hp2; lia). subst p'. rewrite Hx in Hx'. injection Hx' as <-.
    pose proof (unit_at _ _ _ RT Hxp) as Uxp. pose proof (unit_at _ _ _ RH Hhp) as Uhp. specialize (IH xp hp Hxp Hhp).
    change (qmul (t_rot h) (qinv (t_rot hp)) = qinv qhat) in RR. set (H := t_rot h) in *. set (Hpp := t_rot hp) in *. set (X := t_rot x) in *. set (Xp := t_rot xp) in *.
    set (q := qmul Xp (qinv X)) in *. assert (U : qunit q) by (apply qunit_mul; auto using qunit_inv).
    assert (EH : H = qmul (qinv qhat) Hpp). { rewrite <- RR, <- qmul_assoc, qmul_inv_l by auto. now rewrite qmul_1_r. }
    assert (EX : X = qmul (qinv q) Xp). { unfold q. rewrite qinv_mul, qinv_inv, <- qmul_assoc, qmul_inv_l by auto. now rewrite qmul_1_r. }
    cbn [map sum fold_right]. fold (sum (map (fun j => e j + 5 * atol) l)). rewrite EH, EX.
    destruct (C94_distance (qmul (qinv q) Xp) (qmul (qinv qhat) Xp) (qmul (qinv qhat) Hpp)) as (_ & _ & _ & T & _); auto using qunit_mul, qunit_inv.
    destruct (C94_distance (qinv q) (qinv qhat) Xp) as (_ & _ & _ & _ & _ & IR & _); auto using qunit_inv. rewrite IR in T.
    destruct (C94_distance q qhat qone) as (_ & _ & _ & _ & _ & _ & II & _); auto using qunit_one. rewrite II in T.
    destruct (C94_distance Xp Hpp (qinv qhat)) as (_ & _ & _ & _ & IL & _); auto using qunit_inv. rewrite IL in T. pose proof (turn_le _ _ U Uq). lra.
Qed.
Lemma sum_plus (l : list nat) c : sum (map (fun j => e j + c) l) = sum (map e l) + INR (length l) * c.
Proof.
  induction l as [|j l IH]; [cbn; ring|]. cbn [map sum fold_right length]. fold (sum (map (fun j => e j + c) l)). fold (sum (map e l)). rewrite IH, S_INR. ring.
Qed.
Lemma drift_error i l x h : chain no i l -> nth_error trow i = Some x -> nth_error hrow i = Some h ->
  angle_error (t_rot x) (t_rot h) <= sum (map e l) + (INR (length l) + 1) * (5 * atol).
Proof.
  intros C Hx Hh. pose proof (drift i l C x h Hx Hh) as D. rewrite sum_plus in D. pose proof (error_le _ _ (unit_at _ _ _ RT Hx) (unit_at _ _ _ RH Hh)). lra.
Qed.
End Chain.

(** What render_prediction shows: if the predictions of the links have errors of at most [e], then the orientation shown for
    a link is wrong by at most the sum of the errors of the links between it and the world. *)
Theorem C94_shown {K L G O} (W : widths) (ops : parse_ops K L G) (pad : list L -> L -> L) (recolor : G -> G) (s no : System K L G O) att xs yhat transparent ot op :
  ops_laws ops -> pad_laws ops pad -> parsed W ops s -> make_sys_noimu W ops s None = Ok (no, att) -> (0 < num_links no)%nat -> poses_of s xs ->
  has_predictions no yhat (length (tr_rows xs)) -> (forall nm, In nm (link_names no) -> ~ In ("hat_" ++ nm)%string (link_names s)) ->
  exists sr xr, render_prediction_internals W ops pad recolor s xs yhat transparent ot op = Ok (sr, xr) /\
    link_names sr = link_names s ++ map (fun nm => ("hat_" ++ nm)%string) (link_names no) /\
    forall k row, nth_error (tr_rows xs) k = Some row -> exists trow hrow,
      same_named s no row trow /\ nth_error (tr_rows xr) k = Some (map (shift ot) row ++ map (shift op) hrow) /\
      forall e, predicted_within no trow yhat k e -> forall i l x h, chain no i l -> nth_error trow i = Some x -> nth_error hrow i = Some h ->
        angle_error (t_rot x) (t_rot h) <= sum (map e l) + (INR (length l) + 1) * (5 * atol).
Proof.
  intros laws plaws PS HM Hn P HP CL.
  destruct (C80_prediction W ops pad recolor laws plaws s no att xs yhat transparent ot op PS HM Hn P HP CL) as (sr & xr & E & _ & NM & _ & _ & F).
  exists sr, xr. split; [exact E|]. split; [exact NM|]. intros k row Hk. destruct (F k row Hk) as (trow & hrow & SN & FO & _ & RT & RH & X). exists trow, hrow. split; [exact SN|]. split; [exact X|].
  intros e PW i l x h C Hx Hh.
  destruct (noimu_facts W ops laws s no PS att HM) as (PN & keep & RS & _). pose proof (pd_wf _ _ _ PN) as WN.
  apply (drift_error W no WN trow hrow yhat k e RT RH) with (i := i); auto.
  intros nm qs I D. destruct (HP nm I) as (qs' & D' & _ & U). rewrite D in D'. injection D' as <-. exact U.
Qed.

(** ** Errors do add up *)
Definition cz : quat := Q4 (4 / 5) 0 0 (3 / 5).
Lemma cz_unit : qunit cz. Proof. unfold qunit, cz. vunfold. field. Qed.
Definition still : list transform := [t_zero; t_zero].
Definition shown : list transform := [Tr vzero cz; Tr vzero (qmul cz cz)].
Definition guess : list (string * list quat) := [("upper", [cz]); ("lower", [qinv cz])]%string.
Definition worst : R := angle_error qone cz.
Lemma guess_within : predicted_within toy_arm still guess 0 (fun _ => worst).
Proof.
  intros i nm Hn. destruct i as [|[|i]]; cbn [toy_arm link_names nth_error] in Hn; [| |destruct i; discriminate]; injection Hn as <-.
  - exists [cz], cz, qone. split; [reflexivity|]. split; [reflexivity|]. split; [|unfold worst; lra]. left. split; [reflexivity|]. exists t_zero. split; reflexivity.
  - exists [qinv cz], (qinv cz), qone. split; [reflexivity|]. split; [reflexivity|]. split.
    + right. exists 0%nat, t_zero, t_zero. split; [reflexivity|]. split; [reflexivity|]. split; [reflexivity|]. cbn [t_rot t_zero]. vring.
    + unfold worst. assert (E : angle_error qone (qinv cz) = angle_error qone cz); [|lra]. unfold angle_error.
      assert (U := cz_unit). replace (qmul (qinv qone) (qinv cz)) with (qmul (qinv cz) qone) by vring. 
      destruct (C22_angle_error cz qone cz_unit qunit_one) as (_ & S & _). exact S.
Qed.
Lemma follows_shown : follows toy_arm still shown guess 0.
Proof.
  split; [reflexivity|]. intros i nm p Hn Hp. destruct i as [|[|i]]; cbn [toy_arm link_names link_parents nth_error] in Hn, Hp; [| |destruct i; discriminate]; injection Hn as <-; injection Hp as <-.
  - exists [cz], cz, t_zero, (Tr vzero cz). repeat split; try reflexivity; left; split; reflexivity.
  - exists [qinv cz], (qinv cz), (t_mul t_zero (t_inv t_zero)), (t_mul (Tr vzero (qmul cz cz)) (t_inv (Tr vzero cz))). split; [reflexivity|]. split; [reflexivity|].
    split; [right; exists 0%nat, t_zero, t_zero; repeat split|]. split; [right; exists 0%nat, (Tr vzero (qmul cz cz)), (Tr vzero cz); repeat split|].
    split; [unfold cz; vunfold; f_equal; field|]. change (-1 =? -1)%Z with true. change (0 =? -1)%Z with false. cbv iota. rewrite qinv_inv. cbn [t_mul t_inv t_rot]. rewrite <- qmul_assoc, qmul_inv_r by exact cz_unit. apply qmul_1_r.
Qed.
Lemma shown_ok : row_ok toy_arm shown /\ row_ok toy_arm still.
Proof.
  split; (split; [reflexivity|]); repeat constructor; unfold tunit; cbn [t_rot t_zero]; auto using cz_unit, qunit_one, qunit_mul.
Qed.
(** "A link is shown with an error no larger than the largest error of the predictions": with two links it can be twice that. *)
Theorem C94_largest_refuted : exists h, chain toy_arm 1 [1%nat; 0%nat] /\ row_ok toy_arm still /\ row_ok toy_arm shown /\ follows toy_arm still shown guess 0 /\
  predicted_within toy_arm still guess 0 (fun _ => worst) /\ nth_error shown 1 = Some h /\ worst + PI / 7 < angle_error (t_rot t_zero) (t_rot h).
Proof.
  exists (Tr vzero (qmul cz cz)). split; [apply (chain_up _ 1%nat 0%nat); [reflexivity|]; apply chain_root; reflexivity|]. destruct shown_ok as (A & B). split; [exact B|]. split; [exact A|].
  split; [exact follows_shown|]. split; [exact guess_within|]. split; [reflexivity|]. cbn [t_rot t_zero]. unfold worst.
  pose proof (error_le qone cz qunit_one cz_unit) as E1. pose proof (turn_le qone (qmul cz cz) qunit_one (qunit_mul _ _ cz_unit cz_unit)) as E2.
  assert (T1 : turn qone cz <= PI / 2).
  { unfold turn. replace (qdot qone cz) with (4 / 5) by (unfold cz; vunfold; field). rewrite Rabs_right by lra. assert (acos (4 / 5) <= PI / 4); [|lra]. pose proof PI_pos.
    apply acos_le; [lra|lra|]. rewrite cos_PI4. assert (Q : sqrt 2 * sqrt 2 = 2) by (apply sqrt_sqrt; lra). assert (0 < sqrt 2) by (apply sqrt_lt_R0; lra).
    replace (1 / sqrt 2) with (sqrt 2 / 2) by (rewrite <- Q at 2; field; lra). nra. }
  assert (T2 : 2 * PI / 3 <= turn qone (qmul cz cz)).
  { unfold turn. replace (qdot qone (qmul cz cz)) with (7 / 25) by (unfold cz; vunfold; field). rewrite Rabs_right by lra. assert (PI / 3 <= acos (7 / 25)); [|lra]. pose proof PI_pos.
    destruct (Rle_dec (PI / 3) (acos (7 / 25))) as [|N]; [assumption|]. exfalso. pose proof (acos_bound (7 / 25)).
    assert (X : cos (PI / 3) < cos (acos (7 / 25))) by (apply cos_decreasing_1; lra). rewrite cos_PI3, cos_acos in X by lra. lra. }
  pose proof atol_small. pose proof PI2_3_2. lra.
Qed.

(** ** Non-vacuity *)
Example C94_example : exists no att, make_sys_noimu builtin_widths toy_ops toy_arm None = Ok (no, att) /\ (0 < num_links no)%nat /\
  poses_of toy_arm (mkTraj 2 [still]) /\ has_predictions no guess 1 /\ (forall nm, In nm (link_names no) -> ~ In ("hat_" ++ nm)%string (link_names toy_arm)) /\
  chain no 1 [1%nat; 0%nat] /\ predicted_within no still guess 0 (fun _ => worst).
Proof.
  assert (HM : exists no att, make_sys_noimu builtin_widths toy_ops toy_arm None = Ok (no, att) /\ link_names no = ["upper"; "lower"]%string /\ link_parents no = [-1; 0]%Z)
    by (eexists _, _; split; [vm_compute; reflexivity|split; reflexivity]).
  destruct HM as (no & att & HM & En & Ep). exists no, att. split; [exact HM|]. split; [unfold num_links; rewrite Ep; cbn; lia|]. split; [split; [reflexivity|]; repeat constructor; apply qunit_one|].
  split.
  { intros nm I. rewrite En in I. destruct I as [<-|[<-|[]]]; (eexists; split; [reflexivity|]; split; [reflexivity|]; repeat constructor; auto using cz_unit, qunit_inv). }
  split. { intros nm I C. rewrite En in I. cbn [toy_arm link_names] in C. cbn [In] in I, C. intuition (subst; discriminate). }
  split; [apply (chain_up _ 1%nat 0%nat); [rewrite Ep; reflexivity|]; apply chain_root; rewrite Ep; reflexivity|].
  pose proof guess_within as GW. unfold predicted_within, target in *. rewrite En, Ep. exact GW.
Qed.
