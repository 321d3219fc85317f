(** * Facts about the built-in joint models. *)
From Coq Require Import Reals Lra String ZArith Lia Bool List.
From Verif Require Import Prelude M_Sys S_Sys P_Scan P_Run M_Math P_Math P_Trig P_Rot M_Geom M_Joint M_Kin S_Kin.
Import ListNotations.
Local Open Scope R_scope.

Lemma dget_In {V} (d : list (string * V)) k v : dget String.eqb d k = Some v -> In (k, v) d.
Proof.
  induction d as [|[a b] r IH]; cbn [dget]; [discriminate|]. destruct (String.eqb_spec k a).
  - intros H. injection H as ->. subst. now left.
  - intros H. right. auto.
Qed.

Lemma qunit_rot_axis k a : dot k k = 1 -> qunit (quat_rot_axis k a).
Proof. intros H. rewrite rot_axis_unit by auto. now apply rot_unit. Qed.
Lemma dot_x : dot x_unit x_unit = 1. Proof. unfold dot, x_unit; cbn [vx vy vz]; ring. Qed.
Lemma dot_y : dot y_unit y_unit = 1. Proof. unfold dot, y_unit; cbn [vx vy vz]; ring. Qed.
Lemma dot_z : dot z_unit z_unit = 1. Proof. unfold dot, z_unit; cbn [vx vy vz]; ring. Qed.

Lemma list3 {A} (l : list A) : length l = 3%nat -> exists a b c, l = [a; b; c].
Proof. destruct l as [|a [|b [|c [|d l]]]]; try discriminate. eauto. Qed.
Lemma list4 {A} (l : list A) : length l = 4%nat -> exists a b c d, l = [a; b; c; d].
Proof. destruct l as [|a [|b [|c [|d [|e l]]]]]; try discriminate. eauto 6. Qed.
Lemma list7 {A} (l : list A) : length l = 7%nat -> exists a b c d e f g, l = [a; b; c; d; e; f; g].
Proof. destruct l as [|a [|b [|c [|d [|e [|f [|g [|h l]]]]]]]]; try discriminate. eauto 10. Qed.
Lemma list10 {A} (l : list A) : length l = 10%nat -> exists a b c d e f g h i j, l = [a; b; c; d; e; f; g; h; i; j].
Proof. destruct l as [|a [|b [|c [|d [|e [|f [|g [|h [|i [|j [|k l]]]]]]]]]]]; try discriminate. eauto 12. Qed.
Lemma list1 {A} (l : list A) : length l = 1%nat -> exists a, l = [a].
Proof. destruct l as [|a [|b l]]; try discriminate. eauto. Qed.
Lemma list2 {A} (l : list A) : length l = 2%nat -> exists a b, l = [a; b].
Proof. destruct l as [|a [|b [|c l]]]; try discriminate. eauto. Qed.

(** A hinge: the recovered angle gives the same rotation. *)
Lemma hinge_inverts k a (Q : Type) (pr : Q) : dot k k = 1 ->
  exists a', inv_kin_rxyz k (t_of_rot (quat_rot_axis k a)) pr = Ok [a'] /\
    quat_rot_axis k a' = quat_rot_axis k a /\ exists z, a' = a + 4 * PI * IZR z /\ - (2 * PI) <= a' < 2 * PI.
Proof.
  intros H. rewrite (rot_axis_unit k a) by auto. set (h := - a / 2).
  assert (D : dot (qvec (rot k h)) k = sin h).
  { unfold rot. destruct k as [x y z]. vunfold. transitivity (sin h * (x * x + y * y + z * z)); [ring|]. rewrite H. ring. }
  eexists. split; [unfold inv_kin_rxyz; cbn [t_of_rot t_rot]; rewrite D; reflexivity|].
  cbn [rot qw]. pose proof (sin2_cos2 h) as X. unfold Rsqr in X.
  destruct (arctan2_unit (sin h) (cos h)) as (C & S & B); [lra|]. set (b := arctan2 (sin h) (cos h)) in *.
  split.
  - rewrite rot_axis_unit by auto. unfold rot. replace (- - (2 * b) / 2) with b by field. now rewrite C, S.
  - assert (E : exists z, b = h + 2 * IZR z * PI).
    { destruct (wrap_congruent (h - b)) as [z Ez].
      assert (W : wrap_to_pi (h - b) = 0).
      { pose proof (wrap_range (h - b)). pose proof PI_pos. apply same_angle; [| |lra].
        - rewrite cos_wrap, cos_minus, C, S, cos_0. lra.
        - rewrite sin_wrap, sin_minus, C, S, sin_0. ring. }
      exists z. rewrite W in Ez. lra. }
    destruct E as [z Ez]. exists (- z)%Z. rewrite opp_IZR. split; [|lra]. rewrite Ez. unfold h. field.
Qed.

Ltac lens := repeat match goal with
  | H : length ?l = 10%nat |- _ => apply list10 in H; destruct H as (? & ? & ? & ? & ? & ? & ? & ? & ? & ? & ->)
  | H : length ?l = 7%nat |- _ => apply list7 in H; destruct H as (? & ? & ? & ? & ? & ? & ? & ->)
  | H : length ?l = 4%nat |- _ => apply list4 in H; destruct H as (? & ? & ? & ? & ->)
  | H : length ?l = 3%nat |- _ => apply list3 in H; destruct H as (? & ? & ? & ->)
  | H : length ?l = 2%nat |- _ => apply list2 in H; destruct H as (? & ? & ->)
  | H : length ?l = 1%nat |- _ => apply list1 in H; destruct H as (? & ->)
  | H : length ?l = 0%nat |- _ => apply length_zero_iff_nil in H; subst l
  end.

Section B.
Context {P : Type}.
Notation joints := (@builtin_joints P).

(** Every built-in joint transform is a rigid transform for coordinates with unit quaternions. *)
Lemma builtin_tunit typ jm w sl (pr : P) : builtin_table typ = Some jm -> qW builtin_widths typ = Some w ->
  length sl = w -> unit_coords typ sl -> tunit (jm_transform jm sl pr).
Proof.
  intros H Hw Hl U. apply dget_In in H. unfold builtin_joints in H. cbn [In] in H.
  repeat (destruct H as [H|H]; [injection H as <- <-; injection Hw as <-; lens; cbn [jm_transform]|]); [..|contradiction].
  all: unfold unit_coords, has_quat in U; cbn [In] in U.
  - apply U; auto.
  - apply qunit_rot_axis, dot_x.
  - apply tunit_zero.
  - apply U; auto.
  - apply qunit_one.
  - apply tunit_mul; [apply qunit_one|]. apply U; auto.
  - apply qunit_rot_axis, dot_x.
  - apply qunit_rot_axis, dot_y.
  - apply qunit_rot_axis, dot_z.
  - apply qunit_one.
  - apply qunit_one.
  - apply qunit_one.
  - unfold tunit, saddle_transform, t_of_rot. cbn [t_rot]. apply euler_unit.
Qed.

Lemma joint_inverts typ jm w sl (pr : P) : In typ inv_types -> builtin_table typ = Some jm ->
  qW builtin_widths typ = Some w -> length sl = w ->
  exists ik sl', jm_inv_kin jm = Some ik /\ ik (jm_transform jm sl pr) pr = Ok sl' /\ length sl' = w /\
    jm_transform jm sl' pr = jm_transform jm sl pr /\ same_coords typ sl sl'.
Proof.
  intros Hi H Hw Hl. unfold inv_types in Hi. cbn [In] in Hi.
  repeat (destruct Hi as [Hi|Hi]; [subst typ; cbn in H; injection H as <-; injection Hw as <-; lens; cbn [jm_transform jm_inv_kin]|]);
    [..|contradiction].
  all: try (eexists _, _; split; [reflexivity|]; split; [reflexivity|]; split; [reflexivity|]; split; reflexivity).
  1: destruct (hinge_inverts x_unit x P pr dot_x) as (a' & A & B & z & C & D).
  2: destruct (hinge_inverts y_unit x P pr dot_y) as (a' & A & B & z & C & D).
  3: destruct (hinge_inverts z_unit x P pr dot_z) as (a' & A & B & z & C & D).
  1-3: eexists _, [a']; split; [reflexivity|]; split; [exact A|]; split; [reflexivity|]; split;
     [unfold rxyz_transform, getR; cbn [nth]; now rewrite B|].
  1-3: unfold same_coords; cbn; exists x, a', z; auto.
  all: eexists _, [x]; split; [reflexivity|]; split;
    [unfold inv_kin_px, inv_kin_py, inv_kin_pz, pxyz_transform, getR; cbn; do 2 f_equal; ring|]; split; [reflexivity|]; split; reflexivity.
Qed.
End B.
