(** * C78: the meshes of the vispy visuals. *)
From Coq Require Import Reals Lra.
From Coq Require Import ZArith Lia Bool List.
From Verif Require Import Prelude M_Math P_Math M_Geom M_Render S_Render.
Import ListNotations.
Local Open Scope R_scope.

Lemma linspace_bounds a b n i : a <= b -> (2 <= n)%nat -> (i < n)%nat -> a <= linspace a b n i <= b.
Proof.
  intros L N I. unfold linspace.
  assert (P : 0 < INR (n - 1)) by (apply lt_0_INR; lia).
  assert (Q : 0 <= INR i <= INR (n - 1)) by (split; [apply pos_INR | apply le_INR; lia]).
  assert (E : INR i * ((b - a) / INR (n - 1)) = (INR i / INR (n - 1)) * (b - a)) by (field; lra).
  rewrite E. set (k := INR i / INR (n - 1)).
  assert (K : 0 <= k <= 1).
  { subst k. split; [apply Rmult_le_pos; [lra | left; now apply Rinv_0_lt_compat]|].
    apply (Rmult_le_reg_r (INR (n - 1))); [exact P|]. unfold Rdiv. rewrite Rmult_assoc, Rinv_l by lra. lra. }
  nra.
Qed.

Lemma dist_axis a b c s : dist2 (V3 a b c) (V3 s 0 0) = (a - s) * (a - s) + (b * b + c * c).
Proof. unfold dist2. vunfold. ring. Qed.
Lemma Rabs_le_inv a b : Rabs a <= b -> - b <= a <= b.
Proof. intros H. pose proof (Rle_abs a). pose proof (Rle_abs (- a)). rewrite Rabs_Ropp in *. lra. Qed.
Lemma sq_larger x y : 0 <= x -> 0 <= y -> x * x <= (x + y) * (x + y).
Proof. intros. nra. Qed.

(** Every vertex of the mesh of a capsule is on its surface: at distance r of the segment between the centres of its
    caps, and no nearer to any point of that segment. *)
Theorem C78_capsule_mesh r cyl ns nc ncol i j :
  0 <= r -> 0 <= cyl -> (2 <= ns)%nat -> (2 <= nc)%nat -> (i < 2 * ns + nc)%nat ->
  let v := capsule_vertex r cyl ns nc ncol i j in
  (exists s, Rabs s <= cyl / 2 /\ dist2 v (V3 s 0 0) = r ^ 2) /\
  (forall s, Rabs s <= cyl / 2 -> r ^ 2 <= dist2 v (V3 s 0 0)).
Proof.
  intros Hr Hc Ns Nc I. unfold capsule_vertex. cbv zeta. set (phi := linspace 0 (2 * PI) ncol j + PI / INR ncol * INR i).
  pose proof (sin2_cos2 phi) as P. unfold Rsqr in P. pose proof PI_RGT_0 as Pi.
  destruct (Nat.ltb_spec i ns) as [L|L]; [|destruct (Nat.ltb_spec i (ns + nc)) as [L2|L2]].
  - assert (T : 0 <= linspace 0 (PI / 2) ns i <= PI / 2) by (apply linspace_bounds; [lra | lia | lia]).
    set (th := linspace 0 (PI / 2) ns i) in *.
    pose proof (sin2_cos2 th) as Q. unfold Rsqr in Q. assert (C : 0 <= cos th) by (apply cos_ge_0; lra).
    set (ct := cos th) in *. set (st := sin th) in *. set (cp := cos phi) in *. set (sp := sin phi) in *.
    assert (E : (r * cp * st) * (r * cp * st) + (r * sp * st) * (r * sp * st) = r ^ 2 * (1 - ct * ct)).
    { replace (1 - ct * ct) with (st * st) by lra.
      replace ((r * cp * st) * (r * cp * st) + (r * sp * st) * (r * sp * st)) with (r ^ 2 * (st * st) * (sp * sp + cp * cp)) by ring.
      rewrite P. ring. }
    split.
    + exists (cyl / 2). split; [rewrite Rabs_pos_eq; lra|]. rewrite dist_axis, E. ring.
    + intros s Hs. apply Rabs_le_inv in Hs. rewrite dist_axis, E.
      assert (Y : 0 <= r * ct) by now apply Rmult_le_pos.
      pose proof (sq_larger (r * ct) (cyl / 2 - s) Y ltac:(lra)) as X.
      replace (r * ct + cyl / 2 - s) with (r * ct + (cyl / 2 - s)) by ring. lra.
  - assert (T : - cyl / 2 <= linspace (- cyl / 2) (cyl / 2) nc (nc - 1 - (i - ns)) <= cyl / 2)
      by (apply linspace_bounds; [lra | lia | lia]).
    set (x := linspace (- cyl / 2) (cyl / 2) nc (nc - 1 - (i - ns))) in *.
    set (cp := cos phi) in *. set (sp := sin phi) in *.
    assert (E : (r * cp) * (r * cp) + (r * sp) * (r * sp) = r ^ 2).
    { replace ((r * cp) * (r * cp) + (r * sp) * (r * sp)) with (r ^ 2 * (sp * sp + cp * cp)) by ring. rewrite P. ring. }
    split.
    + exists x. split; [apply Rabs_le; lra|]. rewrite dist_axis, E. ring.
    + intros s _. rewrite dist_axis, E. pose proof (Rle_0_sqr (x - s)). unfold Rsqr in *. lra.
  - assert (T : PI / 2 <= linspace (PI / 2) PI ns (i - ns - nc) <= PI) by (apply linspace_bounds; [lra | lia | lia]).
    set (th := linspace (PI / 2) PI ns (i - ns - nc)) in *.
    pose proof (sin2_cos2 th) as Q. unfold Rsqr in Q. assert (C : cos th <= 0) by (apply cos_le_0; lra).
    set (ct := cos th) in *. set (st := sin th) in *. set (cp := cos phi) in *. set (sp := sin phi) in *.
    assert (E : (r * cp * st) * (r * cp * st) + (r * sp * st) * (r * sp * st) = r ^ 2 * (1 - ct * ct)).
    { replace (1 - ct * ct) with (st * st) by lra.
      replace ((r * cp * st) * (r * cp * st) + (r * sp * st) * (r * sp * st)) with (r ^ 2 * (st * st) * (sp * sp + cp * cp)) by ring.
      rewrite P. ring. }
    split.
    + exists (- (cyl / 2)). split; [rewrite Rabs_Ropp, Rabs_pos_eq; lra|]. rewrite dist_axis, E. ring.
    + intros s Hs. apply Rabs_le_inv in Hs. rewrite dist_axis, E.
      assert (Y : 0 <= r * - ct) by (apply Rmult_le_pos; lra).
      pose proof (sq_larger (r * - ct) (cyl / 2 + s) Y ltac:(lra)) as X.
      replace (r * ct - cyl / 2 - s) with (- (r * - ct + (cyl / 2 + s))) by ring. rewrite Rmult_opp_opp. lra.
Qed.

(** Both ends of the capsule are reached: the first row is its tip at +l/2, the last one that at -l/2. *)
Theorem C78_capsule_tips r cyl ns nc ncol j : (2 <= ns)%nat ->
  capsule_vertex r cyl ns nc ncol 0 j = V3 (r + cyl / 2) 0 0 /\
  capsule_vertex r cyl ns nc ncol (2 * ns + nc - 1) j = V3 (- r - cyl / 2) 0 0.
Proof.
  intros Ns. unfold capsule_vertex. cbv zeta. split.
  - replace (0 <? ns)%nat with true by (symmetry; apply Nat.ltb_lt; lia). unfold linspace at 1 3 5. cbn [INR].
    rewrite !Rmult_0_l, !Rplus_0_l, cos_0, sin_0. f_equal; ring.
  - replace (2 * ns + nc - 1 <? ns)%nat with false by (symmetry; apply Nat.ltb_ge; lia).
    replace (2 * ns + nc - 1 <? ns + nc)%nat with false by (symmetry; apply Nat.ltb_ge; lia).
    replace (2 * ns + nc - 1 - ns - nc)%nat with (ns - 1)%nat by lia.
    assert (E : linspace (PI / 2) PI ns (ns - 1) = PI).
    { unfold linspace. assert (0 < INR (ns - 1)) by (apply lt_0_INR; lia). field. lra. }
    rewrite E, cos_PI, sin_PI. f_equal; ring.
Qed.

(** Every triangle of the mesh has three different vertices of the mesh. *)
Theorem C78_capsule_faces rows ncol a b c : (2 <= ncol)%nat -> In (a, b, c) (capsule_faces rows ncol) ->
  (a < rows * ncol)%nat /\ (b < rows * ncol)%nat /\ (c < rows * ncol)%nat /\ a <> b /\ b <> c /\ a <> c.
Proof.
  intros N H. unfold capsule_faces in H. apply in_flat_map in H. destruct H as (row & Hr & H). apply in_seq in Hr.
  assert (B : (row * ncol + 2 * ncol <= rows * ncol)%nat) by nia.
  assert (M : forall k, (k mod ncol < ncol)%nat) by (intros k; apply Nat.mod_upper_bound; lia).
  assert (D : forall k, (k < ncol)%nat -> (k + 1) mod ncol <> k mod ncol).
  { intros k Hk E. rewrite (Nat.mod_small k) in E by lia. destruct (Nat.eq_dec (k + 1) ncol) as [X|X].
    - rewrite X, Nat.mod_same in E by lia. lia.
    - rewrite Nat.mod_small in E by lia. lia. }
  apply in_app_or in H. destruct H as [H|H]; apply in_map_iff in H; destruct H as (k & E & Hk); apply in_seq in Hk;
    injection E as <- <- <-; pose proof (M k); pose proof (M (k + 1)%nat); pose proof (D k ltac:(lia)); lia.
Qed.
Theorem C78_capsule_closed rows ncol row k : (row + 1 < rows)%nat -> (k < ncol)%nat ->
  let v i j := (i * ncol + (j mod ncol))%nat in
  In (v (row + 1) k, v row (k + 1), v row k)%nat (capsule_faces rows ncol) /\
  In (v (row + 1) (k + 1), v row (k + 1), v (row + 1) k)%nat (capsule_faces rows ncol).
Proof.
  intros Hr Hk. cbv zeta. unfold capsule_faces. split; apply in_flat_map; exists row;
    (split; [apply in_seq; lia|]); apply in_or_app.
  - left. apply in_map_iff. exists k. split; [|apply in_seq; lia]. apply f_equal2; [apply f_equal2|]; ring.
  - right. apply in_map_iff. exists k. split; [|apply in_seq; lia]. apply f_equal2; [apply f_equal2|]; ring.
Qed.

(** The mesh of a box: its edges join corners which differ in one coordinate, its triangles lie in one side. *)
Theorem C78_box_mesh dx dy dz : let v i := nth i (box_verts dx dy dz) vzero in
  (forall p, In p (box_verts dx dy dz) <->
     exists a b c, In a [-1; 1] /\ In b [-1; 1] /\ In c [-1; 1] /\ p = V3 (a * (dx / 2)) (b * (dy / 2)) (c * (dz / 2))) /\
  (forall i j, In (i, j) box_edges -> (i < 8)%nat /\ (j < 8)%nat /\
     (v i = V3 (vx (v j)) (vy (v j)) (- vz (v j)) \/ v i = V3 (vx (v j)) (- vy (v j)) (vz (v j)) \/
      v i = V3 (- vx (v j)) (vy (v j)) (vz (v j)))) /\
  (forall i j k, In (i, j, k) box_faces -> (i < 8)%nat /\ (j < 8)%nat /\ (k < 8)%nat /\
     (vx (v i) = vx (v j) /\ vx (v j) = vx (v k) \/ vy (v i) = vy (v j) /\ vy (v j) = vy (v k) \/
      vz (v i) = vz (v j) /\ vz (v j) = vz (v k))).
Proof.
  cbv zeta. split; [|split].
  - intros p. unfold box_verts. cbn [map In]. unfold vscale. cbn [vx vy vz]. split.
    + intros [<-|[<-|[<-|[<-|[<-|[<-|[<-|[<-|[]]]]]]]]].
      * exists (-1), (-1), (-1). repeat split; auto. f_equal; lra.
      * exists 1, (-1), (-1). repeat split; auto. f_equal; lra.
      * exists (-1), 1, (-1). repeat split; auto. f_equal; lra.
      * exists 1, 1, (-1). repeat split; auto. f_equal; lra.
      * exists (-1), (-1), 1. repeat split; auto. f_equal; lra.
      * exists 1, (-1), 1. repeat split; auto. f_equal; lra.
      * exists (-1), 1, 1. repeat split; auto. f_equal; lra.
      * exists 1, 1, 1. repeat split; auto. f_equal; lra.
    + intros (a & b & c & [<-|[<-|[]]] & [<-|[<-|[]]] & [<-|[<-|[]]] & ->).
      * left. f_equal; lra.
      * do 4 right. left. f_equal; lra.
      * do 2 right. left. f_equal; lra.
      * do 6 right. left. f_equal; lra.
      * do 1 right. left. f_equal; lra.
      * do 5 right. left. f_equal; lra.
      * do 3 right. left. f_equal; lra.
      * do 7 right. left. f_equal; lra.
  - intros i j H. unfold box_edges in H. cbn [In] in H.
    repeat (destruct H as [H|H]; [injection H as <- <-; (split; [lia|]); (split; [lia|]);
      unfold box_verts; cbn [map nth]; unfold vscale; cbn [vx vy vz];
      first [left; f_equal; lra | right; left; f_equal; lra | right; right; f_equal; lra]|]). destruct H.
  - intros i j k H. unfold box_faces in H. cbn [In] in H.
    repeat (destruct H as [H|H]; [injection H as <- <- <-; (split; [lia|]); (split; [lia|]); (split; [lia|]);
      unfold box_verts; cbn [map nth]; unfold vscale; cbn [vx vy vz];
      first [left; split; lra | right; left; split; lra | right; right; split; lra]|]). destruct H.
Qed.
