(** * A concrete system over the reals, used to show that theorems' hypotheses are met:
    a free base (0), a hinge about y (1) and a ball joint (2) below it, a slider (3) on the base. *)
From Coq Require Import Reals Psatz String ZArith Bool List.
From Verif Require Import Prelude M_Sys M_Math M_Geom M_Joint M_Kin S_Sys P_Sys P_Math P_Geom P_Run S_Kin P_Joint P_Kin.
Import ListNotations.
Local Open Scope R_scope.

Definition qtilt : quat := Q4 (3 / 5) (4 / 5) 0 0.
Lemma qtilt_unit : qunit qtilt. Proof. unfold qunit, qnorm2, qdot, qtilt. cbn [qw qx qy qz]. field. Qed.
Definition demo_link (p : vec3) (r : quat) (g : list geometry) : plink (params unit) :=
  mkPL (Tr p r) vzero (V3 1 1 1) [("default"%string, tt)] (inertia_from_geometries g) t_zero t_zero.
Definition demo_box : geometry := mkGeom 2 (Tr (V3 (1/2) 0 0) qone) (Box 1 (1/5) (1/5)).
Definition demo_ball : geometry := mkGeom 1 t_zero (Sphere (1/2)).

Definition demo : System R (plink (params unit)) geometry unit :=
  mkSys [-1; 0; 1; 0]%Z
    [demo_link vzero qone [demo_box]; demo_link (V3 1 0 0) qtilt [demo_box];
     demo_link (V3 0 1 0) qone [demo_ball]; demo_link (V3 0 0 1) qtilt [demo_ball]]
    ["free"; "ry"; "spherical"; "px"]%string
    (repeat (1/10) 11) (repeat 0 11) (repeat 3 11) [1;0;0;0;0;0;0;0;1;0;0;0;0] (1/100)
    [(0%Z, demo_box); (1%Z, demo_box); (2%Z, demo_ball); (3%Z, demo_ball)]
    [0; 0; 981/100] "semi_implicit_euler" 0 ["base"; "arm"; "hand"; "tool"]%string None [tt; tt; tt; tt].

Lemma demo_wf : wf builtin_widths demo.
Proof.
  constructor; try reflexivity.
  - cbn [demo link_names]. repeat constructor; cbn [In]; intuition discriminate.
  - unfold demo, topo. cbn [link_parents]. intros [|[|[|[|i]]]] p H; cbn in H; try (injection H as <-; lia).
    destruct i; discriminate.
  - cbn [demo geoms link_parents length]. repeat constructor; cbn; lia.
  - exists [7; 1; 4; 1]%nat, [6; 1; 3; 1]%nat. unfold have_widths. cbn [demo link_types].
    split; [repeat apply Forall2_cons; try reflexivity; apply Forall2_nil|].
    split; [repeat apply Forall2_cons; try reflexivity; apply Forall2_nil|]. repeat split.
Qed.
Lemma demo_known : joints_known (@builtin_table unit) demo.
Proof.
  unfold joints_known. intros [|[|[|[|i]]]] typ l A B; cbn in A, B; [..|destruct i; discriminate].
  all: injection A as <-; injection B as <-; split; [eexists; reflexivity|exists tt; right; split; reflexivity].
Qed.

(** base pose; hinge; ball; slider *)
Definition demo_q : list R := [3/5; 0; 4/5; 0; 1; 2; 3; 1/3; 0; 3/5; 0; 4/5; 2].
Lemma demo_q_size : q_size builtin_widths demo = Ok (length demo_q).
Proof. reflexivity. Qed.
