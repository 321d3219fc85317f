(** * C88.  The inertia of every geometry is that of the solid it describes. *)
From Coq Require Import Reals Lra Lia ZArith List.
From Verif Require Import Prelude M_Sys M_Math M_Geom P_Math P_Geom P_Deriv S_Kin C_Math S_Render S_Solid.
Import ListNotations.
Local Open Scope R_scope.

Ltac dsolve := repeat first [apply D_const | apply D_id | eapply D_plus | eapply D_minus | eapply D_opp | eapply D_mult | eapply D_cos | eapply D_sin].
Ltac prim F := exists F; split; [intros ? _; eapply D_eq; [|solve [dsolve]]; cbv beta|cbv beta].

(** ** The integral is unique *)
Lemma integral_unique f a b I J : a <= b -> integral f a b I -> integral f a b J -> I = J.
Proof.
  intros Hab (F & HF & ->) (G & HG & ->). set (H := fun x => F x - G x).
  assert (D : forall x, a <= x <= b -> derivable_pt_lim H x 0). { intros x Hx. eapply D_eq; [|apply (D_minus F G); [apply HF|apply HG]; exact Hx]. ring. }
  assert (E : H b = H a).
  { destruct (Req_dec a b) as [<-|N]; [reflexivity|]. assert (L : a < b) by lra.
    pose (pr := fun x (P : a < x < b) => exist (fun l => derivable_pt_abs H x l) 0 (D x (conj (Rlt_le _ _ (proj1 P)) (Rlt_le _ _ (proj2 P)))) : derivable_pt H x).
    refine (null_derivative_loc H a b pr _ _ b _).
    - intros x Hx. apply derivable_continuous_pt. exists 0. now apply D.
    - intros x P. reflexivity.
    - lra. }
  unfold H in E. lra.
Qed.
Lemma integral_ext f g a b I : (forall x, a <= x <= b -> f x = g x) -> integral f a b I -> integral g a b I.
Proof. intros E (F & HF & ->). exists F. split; [|reflexivity]. intros x Hx. rewrite <- E by exact Hx. now apply HF. Qed.
Lemma revolved_unique a b rho g I J : a <= b -> (forall x, a <= x <= b -> 0 <= rho x) -> revolved a b rho g I -> revolved a b rho g J -> I = J.
Proof.
  intros Hab Hr (A & B & H1 & H2 & H3) (A' & B' & H1' & H2' & H3').
  assert (EA : forall x s, A x s = A' x s) by (intros x s; eapply integral_unique; [|apply H1|apply H1']; pose proof PI_RGT_0; lra).
  assert (EB : forall x, a <= x <= b -> B x = B' x).
  { intros x Hx. eapply integral_unique; [apply (Hr x Hx)|apply H2, Hx|]. eapply integral_ext; [|apply H2', Hx]. intros s _. symmetry. apply EA. }
  eapply integral_unique; [exact Hab|exact H3|]. eapply integral_ext; [|exact H3']. intros x Hx. symmetry. now apply EB.
Qed.
(** C88.  The volume integral is a function of the solid and the integrand. *)
Theorem C88_unique s g I J : full s -> over s g I -> over s g J -> I = J.
Proof.
  destruct s as [sz|r|X Y Z|r l|r l]; cbn [full over]; intros P.
  - destruct P.
  - apply revolved_unique; [lra|intros; apply sqrt_pos].
  - intros (A & B & H1 & H2 & H3) (A' & B' & H1' & H2' & H3').
    assert (EA : forall x s, A x s = A' x s) by (intros x s; eapply integral_unique; [|apply H1|apply H1']; lra).
    assert (EB : forall x, B x = B' x). { intros x. eapply (integral_unique _ (- (Y / 2)) (Y / 2)); [lra|apply H2|]. eapply integral_ext; [|apply H2']. intros s _. symmetry. apply EA. }
    eapply (integral_unique _ (- (X / 2)) (X / 2)); [lra|exact H3|]. eapply integral_ext; [|exact H3']. intros x _. symmetry. apply EB.
  - apply revolved_unique; [lra|intros; lra].
  - intros (I1 & I2 & I3 & A1 & A2 & A3 & ->) (J1 & J2 & J3 & B1 & B2 & B3 & ->). f_equal; [f_equal|].
    + eapply revolved_unique; [| |exact A1|exact B1]; [lra|intros; apply sqrt_pos].
    + eapply revolved_unique; [| |exact A2|exact B2]; [lra|intros; lra].
    + eapply revolved_unique; [| |exact A3|exact B3]; [lra|intros; apply sqrt_pos].
Qed.

(** ** The described regions are the solids of the geometries *)
(** C88.  A point at distance s from the axis belongs to the solid iff it belongs to the region of integration. *)
Theorem C88_region x s theta : 0 <= s ->
  (forall r, 0 <= r -> solid (Sphere r) (around_axis x s theta) <-> - r <= x <= r /\ s <= sqrt (r ^ 2 - x ^ 2)) /\
  (forall r l, 0 <= r -> solid (Cylinder r l) (around_axis x s theta) <-> - (l / 2) <= x <= l / 2 /\ s <= r) /\
  (forall r l, 0 <= r -> 0 <= l -> solid (Capsule r l) (around_axis x s theta) <->
     (- (l / 2) - r <= x <= - (l / 2) /\ s <= sqrt (r ^ 2 - (x + l / 2) ^ 2)) \/ (- (l / 2) <= x <= l / 2 /\ s <= r) \/
     (l / 2 <= x <= l / 2 + r /\ s <= sqrt (r ^ 2 - (x - l / 2) ^ 2))).
Proof.
  intros P. pose proof (sin2_cos2 theta) as T. unfold Rsqr in T.
  assert (Q : (s * cos theta) ^ 2 + (s * sin theta) ^ 2 = s ^ 2) by (replace (s ^ 2) with (s ^ 2 * (sin theta * sin theta + cos theta * cos theta)) by (rewrite T; ring); ring).
  assert (C : forall r d, 0 <= r -> d ^ 2 + s ^ 2 <= r ^ 2 <-> (- r <= d <= r /\ s <= sqrt (r ^ 2 - d ^ 2))).
  { intros r d Pr. split.
    - intros H. pose proof (pow2_ge_0 s). pose proof (pow2_ge_0 d). split; [split; nra|]. rewrite <- (sqrt_pow2 s P). apply sqrt_le_1; nra.
    - intros [H1 H2]. assert (0 <= r ^ 2 - d ^ 2) by nra. pose proof (pow2_sqrt (r ^ 2 - d ^ 2) ltac:(lra)). pose proof (sqrt_pos (r ^ 2 - d ^ 2)). nra. }
  split; [|split].
  - intros r Pr. cbn [solid]. unfold dist2, around_axis. vunfold. rewrite <- (C r x Pr).
    replace ((x - 0) * (x - 0) + (s * cos theta - 0) * (s * cos theta - 0) + (s * sin theta - 0) * (s * sin theta - 0)) with (x ^ 2 + ((s * cos theta) ^ 2 + (s * sin theta) ^ 2)) by ring.
    rewrite Q. tauto.
  - intros r l Pr. cbn [solid]. unfold around_axis. cbn [vx vy vz]. rewrite Q. split; intros [A B]; (split; [|nra]).
    + pose proof (Rle_abs x). pose proof (Rle_abs (- x)) as R1. rewrite Rabs_Ropp in R1. lra.
    + apply Rabs_le. lra.
  - intros r l Pr Pl. cbn [solid]. unfold near, dist2, around_axis. vunfold.
    assert (E : forall u, (x - ((1 - u) * - (l / 2) + u * (l / 2))) * (x - ((1 - u) * - (l / 2) + u * (l / 2))) + (s * cos theta - ((1 - u) * 0 + u * 0)) * (s * cos theta - ((1 - u) * 0 + u * 0)) +
       (s * sin theta - ((1 - u) * 0 + u * 0)) * (s * sin theta - ((1 - u) * 0 + u * 0)) = (x - (u * l - l / 2)) ^ 2 + s ^ 2).
    { intros u. rewrite <- Q. field. }
    split.
    + intros (u & Hu & H). rewrite E in H. assert (0 <= u * l <= l) by nra. set (c := u * l - l / 2) in *. assert (Hc : - (l / 2) <= c <= l / 2) by (unfold c; lra).
      destruct (Rle_or_lt x (- (l / 2))) as [L|L]; [left|right; destruct (Rle_or_lt x (l / 2)) as [L2|L2]; [left|right]].
      * destruct (proj1 (C r (x + l / 2) Pr)) as [A B]; [nra|]. split; [lra|exact B].
      * split; [lra|]. pose proof (pow2_ge_0 (x - c)). nra.
      * destruct (proj1 (C r (x - l / 2) Pr)) as [A B]; [nra|]. split; [lra|exact B].
    + intros [[A B]|[[A B]|[A B]]].
      * exists 0. split; [lra|]. rewrite E. replace (x - (0 * l - l / 2)) with (x + l / 2) by ring. apply C; [exact Pr|]. split; [lra|exact B].
      * destruct (Req_dec l 0) as [->|N].
        -- exists 0. split; [lra|]. rewrite E. assert (x = 0) as -> by lra. nra.
        -- exists ((x + l / 2) / l). split; [split; [apply Rmult_le_reg_r with l|apply Rmult_le_reg_r with l]; try lra; unfold Rdiv; rewrite Rmult_assoc, Rinv_l by lra; lra|].
           rewrite E. replace (x - ((x + l / 2) / l * l - l / 2)) with 0 by (field; lra). nra.
      * exists 1. split; [lra|]. rewrite E. replace (x - (1 * l - l / 2)) with (x - l / 2) by field. apply C; [exact Pr|]. split; [lra|exact B].
Qed.
(** Every point has such coordinates. *)
Theorem C88_coordinates p : exists s theta, 0 <= s /\ 0 <= theta <= 2 * PI /\ p = around_axis (vx p) s theta.
Proof.
  destruct p as [x y z]. cbn [vx]. set (s := sqrt (y ^ 2 + z ^ 2)). pose proof PI_RGT_0 as Pi. pose proof (pow2_ge_0 y). pose proof (pow2_ge_0 z).
  assert (S2 : s ^ 2 = y ^ 2 + z ^ 2) by (unfold s; apply pow2_sqrt; lra). pose proof (sqrt_pos (y ^ 2 + z ^ 2)) as Ps. fold s in Ps.
  destruct (Req_dec s 0) as [E|N].
  - exists 0, 0. split; [lra|]. split; [lra|]. unfold around_axis. f_equal; rewrite E in S2; nra.
  - assert (Pp : 0 < s) by lra. assert (Hy : -1 <= y / s <= 1) by (split; [apply Rmult_le_reg_r with s|apply Rmult_le_reg_r with s]; try lra; unfold Rdiv; rewrite Rmult_assoc, Rinv_l by lra; nra).
    assert (C : s * cos (acos (y / s)) = y) by (rewrite cos_acos by exact Hy; field; lra).
    pose proof (acos_bound (y / s)) as Ba. assert (Sa : 0 <= sin (acos (y / s))) by (apply sin_ge_0; lra).
    pose proof (sin2_cos2 (acos (y / s))) as T. unfold Rsqr in T. set (a := acos (y / s)) in *.
    assert (Z2 : (s * sin a) ^ 2 = z ^ 2). { replace (z ^ 2) with (s ^ 2 - y ^ 2) by lra. rewrite <- C. replace (s ^ 2 - (s * cos a) ^ 2) with (s ^ 2 * ((sin a * sin a + cos a * cos a) - cos a * cos a)) by (rewrite T; ring). ring. }
    destruct (Rle_or_lt 0 z) as [Hz|Hz].
    + exists s, a. split; [lra|]. split; [lra|]. unfold around_axis. rewrite C. f_equal. assert (0 <= s * sin a) by nra. nra.
    + exists s, (2 * PI - a). split; [lra|]. split; [lra|]. unfold around_axis.
      replace (2 * PI - a) with (- a + 2 * INR 1 * PI) by (cbn; ring). rewrite cos_period, sin_period, cos_neg, sin_neg, C. f_equal. assert (0 <= s * sin a) by nra. nra.
Qed.

(** ** Integrals of quadratic polynomials *)
Section Quad.
Variables c0 c1 c2 c3 c11 c22 c33 c12 c13 c23 : R.
Definition quad (u : vec3) : R :=
  c0 + c1 * vx u + c2 * vy u + c3 * vz u + c11 * (vx u * vx u) + c22 * (vy u * vy u) + c33 * (vz u * vz u) + c12 * (vx u * vy u) + c13 * (vx u * vz u) + c23 * (vy u * vz u).

Lemma box_quad X Y Z : over_box X Y Z quad (X * Y * Z * (c0 + c11 * X ^ 2 / 12 + c22 * Y ^ 2 / 12 + c33 * Z ^ 2 / 12)).
Proof.
  set (q := fun x y => c0 + c1 * x + c2 * y + c11 * (x * x) + c22 * (y * y) + c12 * (x * y)).
  exists (fun x y => q x y * Z + c33 * (Z * Z * Z) / 12).
  exists (fun x => (c0 + c1 * x + c11 * (x * x)) * (Y * Z) + c22 * (Y * Y * Y) * Z / 12 + c33 * (Z * Z * Z) * Y / 12).
  split; [|split].
  - intros x y. prim (fun z => q x y * z + (c3 + c13 * x + c23 * y) * / 2 * (z * z) + c33 * / 3 * (z * z * z)).
    + unfold quad, q. cbn [vx vy vz]. field.
    + unfold q. field.
  - intros x. prim (fun y => ((c0 + c1 * x + c11 * (x * x)) * y + (c2 + c12 * x) * / 2 * (y * y) + c22 * / 3 * (y * y * y)) * Z + c33 * (Z * Z * Z) * / 12 * y).
    + unfold q. field.
    + field.
  - prim (fun x => (c0 * x + c1 * / 2 * (x * x) + c11 * / 3 * (x * x * x)) * (Y * Z) + (c22 * (Y * Y * Y) * Z * / 12 + c33 * (Z * Z * Z) * Y * / 12) * x); field.
Qed.

Definition slab (x rho2 : R) : R := PI * ((c0 + c1 * x + c11 * (x * x)) * rho2 + (c22 + c33) * / 4 * (rho2 * rho2)).
Lemma revolved_quad a b rho I : (forall x, a <= x <= b -> 0 <= rho x) -> 
  integral (fun x => slab x (rho x * rho x)) a b I -> revolved a b rho quad I.
Proof.
  intros P H. exists (fun x s => PI * (2 * (c0 + c1 * x + c11 * (x * x)) * s + (c22 + c33) * (s * s * s))), (fun x => slab x (rho x * rho x)).
  split; [|split; [|exact H]].
  - intros x s. prim (fun t => ((c0 + c1 * x + c11 * (x * x)) * t + (c2 + c12 * x) * s * sin t - (c3 + c13 * x) * s * cos t
        + (c22 + c33) * (s * s) * / 2 * t + (c22 - c33) * (s * s) * / 2 * (sin t * cos t) + c23 * (s * s) * / 2 * (sin t * sin t)) * s).
    + unfold quad, around_axis. cbn [vx vy vz]. match goal with |- context [sin ?t] => pose proof (sin2_cos2 t) as T; unfold Rsqr in T; set (sn := sin t) in *; set (cs := cos t) in * end.
      assert (E : sn * sn = 1 - cs * cs) by lra. field [E].
    + rewrite sin_0, cos_0, sin_2PI, cos_2PI. field.
  - intros x Hx. prim (fun s => PI * ((c0 + c1 * x + c11 * (x * x)) * (s * s) + (c22 + c33) * / 4 * (s * s * s * s))); unfold slab; field.
Qed.
End Quad.

(** Volume and second moments *)
Definition volume (s : shape) : R :=
  match s with
  | XYZ _ => 0
  | Box X Y Z => X * Y * Z
  | Sphere r => 4 / 3 * PI * r ^ 3
  | Cylinder r l => PI * r ^ 2 * l
  | Capsule r l => PI * r ^ 2 * l + 4 / 3 * PI * r ^ 3
  end.
Definition moments (s : shape) : vec3 :=
  match s with
  | XYZ _ => vzero
  | Box X Y Z => V3 (X * Y * Z * X ^ 2 / 12) (X * Y * Z * Y ^ 2 / 12) (X * Y * Z * Z ^ 2 / 12)
  | Sphere r => let m := 4 / 15 * PI * r ^ 5 in V3 m m m
  | Cylinder r l => V3 (PI * r ^ 2 * l ^ 3 / 12) (PI * r ^ 4 * l / 4) (PI * r ^ 4 * l / 4)
  | Capsule r l => let m := PI * r ^ 4 * l / 4 + 4 / 15 * PI * r ^ 5 in
      V3 (PI * r ^ 2 * l ^ 3 / 12 + PI * (4 / 15 * r ^ 5 + l * r ^ 4 / 2 + l ^ 2 * r ^ 3 / 3)) m m
  end.
Lemma volume_pos s : full s -> 0 < volume s.
Proof.
  pose proof PI_RGT_0 as P. destruct s as [sz|r|X Y Z|r l|r l]; cbn [full volume].
  - intros [].
  - intros H. apply Rmult_lt_0_compat; [lra|apply pow_lt, H].
  - intros (A & B & C). apply Rmult_lt_0_compat; [apply Rmult_lt_0_compat|]; assumption.
  - intros (A & B). apply Rmult_lt_0_compat; [apply Rmult_lt_0_compat; [exact P|apply pow_lt, A]|exact B].
  - intros (A & B). pose proof (pow_lt r 2 A) as Q. pose proof (pow_lt r 3 A) as Q3.
    assert (0 <= PI * r ^ 2 * l) by (apply Rmult_le_pos; [apply Rmult_le_pos|]; lra). assert (0 < 4 / 3 * PI * r ^ 3) by (apply Rmult_lt_0_compat; lra). lra.
Qed.

Section Over.
Variables c0 c1 c2 c3 c11 c22 c33 c12 c13 c23 : R.
Notation quad_ := (quad c0 c1 c2 c3 c11 c22 c33 c12 c13 c23).
Notation slab_ := (slab c0 c1 c11 c22 c33).
Definition cap_prim (r h y : R) : R :=
  PI * ((c0 + c1 * h + c11 * (h * h)) * (r * r * y - / 3 * (y * y * y)) + (c1 + 2 * c11 * h) * (r * r * / 2 * (y * y) - / 4 * (y * y * y * y))
    + c11 * (r * r * / 3 * (y * y * y) - / 5 * (y * y * y * y * y)) + (c22 + c33) * / 4 * (r * r * r * r * y - 2 * / 3 * (r * r) * (y * y * y) + / 5 * (y * y * y * y * y))).
Lemma cap_int r h a b : integral (fun x => slab_ x (r * r - (x - h) * (x - h))) a b (cap_prim r h (b - h) - cap_prim r h (a - h)).
Proof.
  exists (fun x => cap_prim r h (x - h)). split; [|reflexivity]. intros x _. unfold cap_prim. eapply D_eq; [|solve [dsolve]]. cbv beta. unfold slab. field.
Qed.
Lemma cap_revolved r h a b I : - r <= a - h -> b - h <= r -> I = cap_prim r h (b - h) - cap_prim r h (a - h) ->
  revolved a b (fun x => sqrt (r ^ 2 - (x - h) ^ 2)) quad_ I.
Proof.
  intros Ha Hb ->. apply revolved_quad; [intros; apply sqrt_pos|]. eapply integral_ext; [|apply cap_int]. intros x Hx. cbv beta. f_equal.
  rewrite sqrt_sqrt; [ring|]. nra.
Qed.
Lemma tube_revolved r a b I : 0 <= r -> I = PI * ((c0 * b + c1 * / 2 * b ^ 2 + c11 * / 3 * b ^ 3) * r ^ 2 + (c22 + c33) * / 4 * r ^ 4 * b)
    - PI * ((c0 * a + c1 * / 2 * a ^ 2 + c11 * / 3 * a ^ 3) * r ^ 2 + (c22 + c33) * / 4 * r ^ 4 * a) ->
  revolved a b (fun _ => r) quad_ I.
Proof.
  intros P ->. apply revolved_quad; [auto|]. prim (fun x => PI * ((c0 * x + c1 * / 2 * (x * x) + c11 * / 3 * (x * x * x)) * (r * r) + (c22 + c33) * / 4 * (r * r * (r * r)) * x)).
  - unfold slab. field.
  - field.
Qed.
Lemma revolved_ext a b rho rho' g I : (forall x, rho x = rho' x) -> revolved a b rho g I -> revolved a b rho' g I.
Proof. intros E (A & B & H1 & H2 & H3). exists A, B. split; [exact H1|]. split; [|exact H3]. intros x Hx. rewrite <- E. now apply H2. Qed.
Lemma over_quad s : full s -> over s quad_ (c0 * volume s + c11 * vx (moments s) + c22 * vy (moments s) + c33 * vz (moments s)).
Proof.
  destruct s as [sz|r|X Y Z|r l|r l]; cbn [full volume moments over]; cbv zeta; cbn [vx vy vz]; intros P.
  - destruct P.
  - apply (revolved_ext _ _ (fun x => sqrt (r ^ 2 - (x - 0) ^ 2))); [intros x; do 2 f_equal; ring|]. apply cap_revolved; [lra|lra|]. unfold cap_prim. field.
  - replace (c0 * (X * Y * Z) + c11 * (X * Y * Z * X ^ 2 / 12) + c22 * (X * Y * Z * Y ^ 2 / 12) + c33 * (X * Y * Z * Z ^ 2 / 12))
      with (X * Y * Z * (c0 + c11 * X ^ 2 / 12 + c22 * Y ^ 2 / 12 + c33 * Z ^ 2 / 12)) by field. apply box_quad.
  - apply tube_revolved; [lra|]. field.
  - eexists. eexists. eexists. split; [|split; [|split]].
    + apply (revolved_ext _ _ (fun x => sqrt (r ^ 2 - (x - - (l / 2)) ^ 2))); [intros x; do 2 f_equal; ring|]. apply cap_revolved; [lra|lra|reflexivity].
    + apply tube_revolved; [lra|reflexivity].
    + apply cap_revolved; [lra|lra|reflexivity].
    + unfold cap_prim. field.
Qed.
End Over.
Lemma over_ext s g h I : (forall u, g u = h u) -> over s g I -> over s h I.
Proof.
  intros E. assert (RE : forall a b rho J, revolved a b rho g J -> revolved a b rho h J).
  { intros a b rho J (A & B & H1 & H2 & H3). exists A, B. split; [|auto]. intros x t. eapply integral_ext; [|apply H1]. intros z _. cbv beta. now rewrite E. }
  destruct s as [sz|r|X Y Z|r l|r l]; cbn [over]; auto.
  - intros (A & B & H1 & H2 & H3). exists A, B. split; [|auto]. intros x y. eapply integral_ext; [|apply H1]. intros z _. cbv beta. now rewrite E.
  - intros (I1 & I2 & I3 & A1 & A2 & A3 & ->). exists I1, I2, I3. auto.
Qed.

(** ** The inertia of the code *)
Lemma inertia_moments m s : full s -> get_it_3x3 m s =
  mscale (m / volume s) (mdiag (vy (moments s) + vz (moments s)) (vx (moments s) + vz (moments s)) (vx (moments s) + vy (moments s))).
Proof.
  intros F. pose proof (volume_pos s F) as V. pose proof PI_RGT_0 as P. destruct s as [sz|r|X Y Z|r l|r l]; cbn [full volume moments get_it_3x3] in *; cbv zeta in *; cbn [vx vy vz]; unfold mscale, mdiag, meye.
  - destruct F.
  - vunfold. repeat match goal with |- @eq mat3 _ _ => f_equal | |- @eq vec3 _ _ => f_equal end; try ring; field; split; lra.
  - destruct F as (A & B & C). vunfold. repeat match goal with |- @eq mat3 _ _ => f_equal | |- @eq vec3 _ _ => f_equal end; try ring; field; repeat split; lra.
  - destruct F as (A & B). vunfold. repeat match goal with |- @eq mat3 _ _ => f_equal | |- @eq vec3 _ _ => f_equal end; try ring; field; repeat split; lra.
  - destruct F as (A & B). replace 0.25 with (1 / 4) by lra. replace 0.4 with (2 / 5) by lra. replace 0.375 with (3 / 8) by lra. replace 0.5 with (1 / 2) by lra. vunfold. repeat match goal with |- @eq mat3 _ _ => f_equal | |- @eq vec3 _ _ => f_equal end; try ring; field; repeat split; try nra.
Qed.

Definition energy_quad (k : R) (w f1 f2 f3 : vec3) : vec3 -> R :=
  quad (k * dot w w) (k * (2 * dot w f1)) (k * (2 * dot w f2)) (k * (2 * dot w f3)) (k * dot f1 f1) (k * dot f2 f2) (k * dot f3 f3)
       (k * (2 * dot f1 f2)) (k * (2 * dot f1 f3)) (k * (2 * dot f2 f3)).
Lemma one_quad u : quad 1 0 0 0 0 0 0 0 0 0 u = 1.
Proof. unfold quad. ring. Qed.
Lemma over_one s : full s -> over s (fun _ => 1) (volume s).
Proof.
  intros F. apply (over_ext s (quad 1 0 0 0 0 0 0 0 0 0)); [apply one_quad|].
  replace (volume s) with (1 * volume s + 0 * vx (moments s) + 0 * vy (moments s) + 0 * vz (moments s)) at 1 by ring. now apply over_quad.
Qed.
Lemma to_world_lin t u : to_world t u = vadd (t_pos t) (vadd (vscale (vx u) (rotate x_unit (qinv (t_rot t)))) (vadd (vscale (vy u) (rotate y_unit (qinv (t_rot t)))) (vscale (vz u) (rotate z_unit (qinv (t_rot t)))))).
Proof.
  unfold to_world. f_equal. rewrite <- !rotate_scale, <- !rotate_add. f_equal. destruct u. vring.
Qed.
Lemma velocity_quad k sp t u : k * dot (velocity_at sp (to_world t u)) (velocity_at sp (to_world t u)) =
  energy_quad k (velocity_at sp (t_pos t)) (cross (ang sp) (rotate x_unit (qinv (t_rot t)))) (cross (ang sp) (rotate y_unit (qinv (t_rot t)))) (cross (ang sp) (rotate z_unit (qinv (t_rot t)))) u.
Proof.
  rewrite to_world_lin. unfold velocity_at, energy_quad, quad. generalize (rotate x_unit (qinv (t_rot t))) (rotate y_unit (qinv (t_rot t))) (rotate z_unit (qinv (t_rot t))) (t_pos t).
  intros a b c p. destruct sp as [om v], u as [x y z], a, b, c, p, om, v. vunfold. ring.
Qed.
Lemma cross_axis om e q : qunit q -> dot (cross om (rotate e (qinv q))) (cross om (rotate e (qinv q))) = dot (cross (rotate om q) e) (cross (rotate om q) e).
Proof.
  intros Q. rewrite <- (rotate_dot _ _ q Q), <- (rotate_cross _ _ q Q), (rotate_inv_r _ _ Q). reflexivity.
Qed.

(** C88.  A geometry contributes to the inertia of its link the mass, the first moments and, for every motion of the link, the kinetic energy
    of the solid of constant density that it describes, in the pose in which it is attached. *)
Theorem C88_inertia m t s : tunit t -> full s ->
  let it := inertia_create m t (get_it_3x3 m s) in
  i_mass it = m /\ (forall n, first_moment (mkGeom m t s) n (dot n (i_h it))) /\
  (forall sp, twice_energy (mkGeom m t s) sp (m_dot sp (i_mul it sp))).
Proof.
  intros T F. cbv zeta. pose proof (volume_pos s F) as P. split; [reflexivity|]. split.
  - intros n. exists (volume s). cbn [g_shape g_mass g_transform]. split; [now apply over_one|].
    set (k := m / volume s). set (e1 := rotate x_unit (qinv (t_rot t))). set (e2 := rotate y_unit (qinv (t_rot t))). set (e3 := rotate z_unit (qinv (t_rot t))).
    apply (over_ext s (quad (k * dot n (t_pos t)) (k * dot n e1) (k * dot n e2) (k * dot n e3) 0 0 0 0 0 0)).
    + intros u. rewrite to_world_lin. fold e1 e2 e3. unfold quad. destruct n, u, e1, e2, e3, (t_pos t). vunfold. ring.
    + replace (dot n (i_h (inertia_create m t (get_it_3x3 m s)))) with (k * dot n (t_pos t) * volume s + 0 * vx (moments s) + 0 * vy (moments s) + 0 * vz (moments s)); [now apply over_quad|].
      unfold inertia_create, k. cbn [i_h]. destruct n, (t_pos t). vunfold. field. lra.
  - intros sp. exists (volume s). cbn [g_shape g_mass g_transform]. split; [now apply over_one|].
    apply (over_ext s (energy_quad (m / volume s) (velocity_at sp (t_pos t)) (cross (ang sp) (rotate x_unit (qinv (t_rot t))))
      (cross (ang sp) (rotate y_unit (qinv (t_rot t)))) (cross (ang sp) (rotate z_unit (qinv (t_rot t)))))); [intros u; symmetry; apply velocity_quad|]. unfold energy_quad.
    rewrite C20_body_energy by exact T. rewrite (inertia_moments m s F).
    match goal with |- over s (quad ?a0 ?a1 ?a2 ?a3 ?a11 ?a22 ?a33 ?a12 ?a13 ?a23) ?I => replace I with (a0 * volume s + a11 * vx (moments s) + a22 * vy (moments s) + a33 * vz (moments s)); [now apply over_quad|] end.
    rewrite !(cross_axis (ang sp) _ (t_rot t) T). unfold point_velocity, velocity_at. generalize (rotate (ang sp) (t_rot t)). intros o.
    destruct o, (moments s), (vadd (vel sp) (cross (ang sp) (t_pos t))). vunfold. field. lra.
Qed.

(** C88.  Hence the inertia of a link gives the kinetic energy of all its geometries together. *)
Theorem C88_link gs sp : Forall proper gs ->
  exists Is, Forall2 (fun g I => twice_energy g sp I) gs Is /\ m_dot sp (i_mul (inertia_from_geometries gs) sp) = fold_right Rplus 0 Is.
Proof.
  intros F. rewrite (proj1 (proj2 (C20_link_inertia gs))). eexists. split; [|reflexivity].
  induction F as [|g gs (T & G) F IH]; cbn [map]; constructor; [|exact IH]. destruct g as [m t s]. cbn [g_mass g_transform g_shape] in *.
  destruct G as [G|((z & ->) & ->)]; [apply (C88_inertia m t s T G)|]. exists 0. cbn [g_shape over]. split; [reflexivity|].
  rewrite C20_body_energy by exact T. cbn [get_it_3x3]. destruct (rotate (ang sp) (t_rot t)). vunfold. ring.
Qed.
(** ... and so does the inertia that parse stores in a link. *)
Theorem C88_parse {J O} (W : widths) (s s' : System R (plink J) geometry O) i l sp : parse W phys_ops s = Ok s' -> nth_error (links s') i = Some l ->
  Forall (fun g => proper (snd g)) (geoms s) ->
  exists Is, Forall2 (fun g I => twice_energy g sp I) (map snd (filter (fun g => Z.eqb (fst g) (Z.of_nat i)) (geoms s))) Is /\
    m_dot sp (i_mul (pl_inertia l) sp) = fold_right Rplus 0 Is.
Proof.
  intros E L F. destruct (C20_parse_inertia W s s' E) as [_ H]. destruct (H i l L) as (l0 & _ & -> & _). apply C88_link.
  apply Forall_forall. intros g I. apply in_map_iff in I. destruct I as (x & <- & I). apply filter_In in I. exact (proj1 (Forall_forall _ _) F _ (proj1 I)).
Qed.

(** A rolling capsule and a box that hangs beside the axis. *)
Example C88_example : Forall proper [mkGeom 2 (Tr (V3 0 0 1) qone) (Capsule 1 3); mkGeom 1 t_zero (Box 1 2 3); mkGeom 0 t_zero (XYZ 1)] /\
  get_it_3x3 1 (Sphere 5) = mdiag 10 10 10.
Proof.
  split.
  - constructor; [|constructor; [|constructor; [|constructor]]]; (split; [unfold tunit, t_zero; cbn [g_transform t_rot]; apply qunit_one|]).
    + left. cbn. lra.
    + left. cbn. lra.
    + right. split; [now exists 1|reflexivity].
  - cbn [get_it_3x3]. vunfold. vsplit; lra.
Qed.
Print Assumptions C88_parse.
