(** * C86: the iterative inverse of the mass matrix (mass_mat_iters > 0). *)
From Coq Require Import Reals Lra ZArith Lia Bool List.
From Verif Require Import Prelude M_Sys M_Geom M_Joint M_Dyn P_Mat.
Import ListNotations.
Local Open Scope R_scope.

(** ** Matrices up to size n *)
Definition meq (n : nat) (A B : mat) : Prop := forall a b, (a < n)%nat -> (b < n)%nat -> A a b = B a b.
Definition mat_sub (A B : mat) : mat := fun a b => A a b - B a b.
(** How far X is from being the inverse of A *)
Definition residual (n : nat) (A X : mat) : mat := mat_sub eye (mat_mul n A X).
Definition inverse_of (n : nat) (B A : mat) : Prop := meq n (mat_mul n B A) eye.

Lemma mul_assoc n A B C a b : mat_mul n (mat_mul n A B) C a b = mat_mul n A (mat_mul n B C) a b.
Proof.
  unfold mat_mul. transitivity (sumR n (fun k => sumR n (fun j => A a j * B j k * C k b))).
  - apply sumR_ext. intros k _. now rewrite <- sumR_scale_r.
  - rewrite sumR_swap. apply sumR_ext. intros j _. rewrite <- sumR_scale. apply sumR_ext. intros k _. ring.
Qed.
Lemma mul_ext n A A' B B' : meq n A A' -> meq n B B' -> meq n (mat_mul n A B) (mat_mul n A' B').
Proof. intros H K a b Ha Hb. apply sumR_ext. intros k Hk. rewrite H, K by auto. reflexivity. Qed.
Lemma mul_eye_l n A : meq n (mat_mul n eye A) A.
Proof.
  intros a b Ha Hb. unfold mat_mul. rewrite (sumR_delta n a); [|exact Ha|].
  - unfold eye. rewrite Nat.eqb_refl. ring.
  - intros j _ N. unfold eye. destruct (Nat.eqb_spec a j); [congruence|ring].
Qed.
Lemma mul_eye_r n A : meq n (mat_mul n A eye) A.
Proof.
  intros a b Ha Hb. unfold mat_mul. rewrite (sumR_delta n b); [|exact Hb|].
  - unfold eye. rewrite Nat.eqb_refl. ring.
  - intros j _ N. unfold eye. destruct (Nat.eqb_spec j b); [congruence|ring].
Qed.

(** ** The norm *)
Definition norm2 (n : nat) (A : mat) : R := sumR n (fun a => sumR n (fun b => A a b * A a b)).
Lemma norm2_nonneg n A : 0 <= norm2 n A.
Proof. apply sumR_nonneg. intros a _. apply sumR_nonneg. intros b _. nra. Qed.
Lemma norm_norm2 n A : mat_norm n A = sqrt (norm2 n A). Proof. reflexivity. Qed.
Lemma norm_nonneg n A : 0 <= mat_norm n A. Proof. apply sqrt_pos. Qed.
Lemma norm_ext n A B : meq n A B -> mat_norm n A = mat_norm n B.
Proof. intros H. unfold mat_norm. f_equal. apply sumR_ext. intros a Ha. apply sumR_ext. intros b Hb. now rewrite H. Qed.
Lemma sumR_le n f g : (forall k, (k < n)%nat -> f k <= g k) -> sumR n f <= sumR n g.
Proof. intros H. induction n as [|n IH]; cbn [sumR]; [lra|]. specialize (IH ltac:(intros; apply H; lia)). pose proof (H n ltac:(lia)). lra. Qed.
Lemma cauchy_schwarz n f g : sumR n (fun k => f k * g k) * sumR n (fun k => f k * g k) <= sumR n (fun k => f k * f k) * sumR n (fun k => g k * g k).
Proof.
  induction n as [|n IH]; cbn [sumR]; [lra|].
  set (S := sumR n (fun k => f k * g k)) in *. set (X := sumR n (fun k => f k * f k)) in *. set (Y := sumR n (fun k => g k * g k)) in *.
  assert (HX : 0 <= X) by (apply sumR_nonneg; intros; nra). assert (HY : 0 <= Y) by (apply sumR_nonneg; intros; nra).
  set (x := f n). set (y := g n).
  assert (M : 2 * (S * (x * y)) <= X * (y * y) + Y * (x * x)).
  { assert (SQ : (2 * (S * (x * y))) * (2 * (S * (x * y))) <= (X * (y * y) + Y * (x * x)) * (X * (y * y) + Y * (x * x))).
    { assert (4 * (S * S) * ((x * y) * (x * y)) <= 4 * (X * Y) * ((x * y) * (x * y))) by (apply Rmult_le_compat_r; nra).
      pose proof (Rle_0_sqr (X * (y * y) - Y * (x * x))) as Q. unfold Rsqr in Q. nra. }
    assert (NN : 0 <= X * (y * y) + Y * (x * x)) by nra.
    destruct (Rle_dec (2 * (S * (x * y))) (X * (y * y) + Y * (x * x))) as [L|L]; [exact L|]. exfalso. nra. }
  nra.
Qed.
Lemma norm2_mul n A B : norm2 n (mat_mul n A B) <= norm2 n A * norm2 n B.
Proof.
  unfold norm2 at 1, mat_mul.
  apply Rle_trans with (sumR n (fun a => sumR n (fun b => sumR n (fun k => A a k * A a k) * sumR n (fun k => B k b * B k b)))).
  - apply sumR_le. intros a _. apply sumR_le. intros b _. apply (cauchy_schwarz n (fun k => A a k) (fun k => B k b)).
  - right. unfold norm2. rewrite <- sumR_scale_r. apply sumR_ext. intros a _. rewrite sumR_scale. f_equal. apply sumR_swap.
Qed.
Lemma norm_mul n A B : mat_norm n (mat_mul n A B) <= mat_norm n A * mat_norm n B.
Proof. rewrite !norm_norm2, <- sqrt_mult by apply norm2_nonneg. apply sqrt_le_1; [apply norm2_nonneg|apply Rmult_le_pos; apply norm2_nonneg|apply norm2_mul]. Qed.

(** ** One step squares the residual *)
Definition improved (n : nat) (A X : mat) : mat := mat_mul n X (mat_add eye (residual n A X)).
Theorem C86_square n A X : meq n (residual n A (improved n A X)) (mat_mul n (residual n A X) (residual n A X)).
Proof.
  intros a b Ha Hb. unfold residual at 1. unfold mat_sub at 1. unfold improved. rewrite <- mul_assoc.
  set (P := mat_mul n A X). assert (ER : forall u v, residual n A X u v = eye u v - P u v) by reflexivity. unfold mat_mul, mat_add.
  rewrite (sumR_ext n (fun k => P a k * (eye k b + residual n A X k b)) (fun k => 2 * (P a k * eye k b) - P a k * P k b)) by (intros k _; rewrite ER; ring).
  rewrite (sumR_ext n (fun k => residual n A X a k * residual n A X k b) (fun k => (eye a k * eye k b - eye a k * P k b) - (P a k * eye k b - P a k * P k b))) by (intros k _; rewrite !ER; ring).
  rewrite !sumR_sub, sumR_scale.
  pose proof (mul_eye_r n P a b Ha Hb) as E1. pose proof (mul_eye_l n P a b Ha Hb) as E2. pose proof (mul_eye_l n eye a b Ha Hb) as E3. unfold mat_mul in E1, E2, E3. rewrite E1, E2, E3. ring.
Qed.

(** The loop from a guess whose residual r is known, with norm below the remembered error or zero. *)
Lemma loop_converges n A : forall k X r err, meq n r (residual n A X) -> mat_norm n r < 1 -> mat_norm n r < err \/ (mat_norm n r = err) ->
  mat_norm n (residual n A (newton_schulz n A X r err k)) <= mat_norm n r ^ (2 ^ k).
Proof.
  induction k as [|k IH]; intros X r err ER R1 RE.
  - cbn [newton_schulz Nat.pow pow]. rewrite (norm_ext n (residual n A X) r); [lra|]. intros a b Ha Hb. symmetry. now apply ER.
  - cbn [newton_schulz]. set (next := mat_mul n X (mat_add eye r)). set (r' := mat_add eye (mat_scale (-1) (mat_mul n A next))).
    assert (EN : meq n next (improved n A X)). { apply mul_ext; [intros a b _ _; reflexivity|]. intros a b Ha Hb. unfold mat_add. now rewrite ER. }
    assert (ER' : meq n r' (residual n A next)). { intros a b _ _. unfold r', residual, mat_add, mat_sub, mat_scale. ring. }
    assert (SQ : meq n r' (mat_mul n r r)).
    { intros a b Ha Hb. rewrite ER' by auto. transitivity (residual n A (improved n A X) a b).
      - unfold residual, mat_sub. f_equal. assert (MM : meq n A A) by (intros u v _ _; reflexivity). now rewrite (mul_ext n A A _ _ MM EN a b Ha Hb).
      - rewrite C86_square by auto. symmetry. apply (mul_ext n _ _ _ _ ER ER a b Ha Hb). }
    pose proof (norm_nonneg n r) as N0. assert (NS : mat_norm n r' <= mat_norm n r * mat_norm n r) by (rewrite (norm_ext n _ _ SQ); apply norm_mul).
    pose proof (norm_nonneg n r') as N0'.
    assert (PW : (mat_norm n r * mat_norm n r) ^ (2 ^ k) = mat_norm n r ^ (2 ^ S k)). { replace (2 ^ S k)%nat with (2 * 2 ^ k)%nat by (cbn; lia). rewrite pow_mult. f_equal. ring. }
    destruct (Rlt_dec (mat_norm n r') err) as [L|L].
    + eapply Rle_trans; [apply (IH next r' (mat_norm n r')); [exact ER'|nra|now right]|]. rewrite <- PW. apply pow_incr. lra.
    + (* the error did not shrink: it is zero already *)
      assert (Z : mat_norm n r = 0). { destruct RE as [RE|RE]; [nra|]. subst err. nra. }
      assert (Z' : mat_norm n r' = 0) by nra.
      assert (RZ : forall M, mat_norm n M = 0 -> forall a b, (a < n)%nat -> (b < n)%nat -> M a b = 0).
      { intros M HM a b Ha Hb. unfold mat_norm in HM. apply sqrt_eq_0 in HM; [|apply norm2_nonneg].
        assert (P1 : forall m f, (forall j, 0 <= f j) -> sumR m f = 0 -> forall j, (j < m)%nat -> f j = 0).
        { induction m as [|m IHm]; intros f F E j Hj; [lia|]. cbn [sumR] in E. assert (0 <= sumR m f) by (apply sumR_nonneg; auto). pose proof (F m).
          destruct (Nat.eq_dec j m) as [->|NE]; [lra|]. apply IHm; auto; [lra|lia]. }
        assert (Q : sumR n (fun b => M a b * M a b) = 0) by (apply (P1 n (fun a => sumR n (fun b => M a b * M a b))); auto; intros; apply sumR_nonneg; intros; nra).
        assert (Q2 : M a b * M a b = 0) by (apply (P1 n (fun b => M a b * M a b)); auto; intros; nra). nra. }
      assert (EX : meq n r' (residual n A X)). { intros a b Ha Hb. rewrite <- ER by auto. rewrite (RZ r' Z'), (RZ r Z) by auto. reflexivity. }
      eapply Rle_trans; [apply (IH X r' (mat_norm n r')); [exact EX|lra|now right]|]. rewrite <- PW. apply pow_incr. lra.
Qed.

(** From a guess with residual below one, k steps bring the residual down to its 2^k-th power. *)
Theorem C86_converges n A X k : mat_norm n (residual n A X) < 1 ->
  mat_norm n (residual n A (inv_approximate n A X k)) <= mat_norm n (residual n A X) ^ (2 ^ k).
Proof.
  intros H. unfold inv_approximate. set (r0 := mat_add eye (mat_scale (-1) (mat_mul n A X))).
  assert (E : meq n r0 (residual n A X)). { intros a b _ _. unfold r0, residual, mat_add, mat_sub, mat_scale. ring. }
  pose proof (norm_ext n _ _ E) as EN. destruct (Rlt_dec 1 (mat_norm n r0)) as [L|L]; [lra|]. rewrite <- EN.
  apply loop_converges; [exact E|lra|lra].
Qed.
(** Seen from the inverse itself. *)
Theorem C86_error n A B X k : inverse_of n B A -> mat_norm n (residual n A X) < 1 ->
  mat_norm n (mat_sub B (inv_approximate n A X k)) <= mat_norm n B * mat_norm n (residual n A X) ^ (2 ^ k).
Proof.
  intros I H. set (Y := inv_approximate n A X k).
  assert (E : meq n (mat_sub B Y) (mat_mul n B (residual n A Y))).
  { intros a b Ha Hb. unfold residual, mat_sub. transitivity (mat_mul n B eye a b - mat_mul n B (mat_mul n A Y) a b).
    - rewrite (mul_eye_r n B a b Ha Hb), <- mul_assoc. rewrite (mul_ext n (mat_mul n B A) eye Y Y I ltac:(intros u v _ _; reflexivity) a b Ha Hb). now rewrite (mul_eye_l n Y a b Ha Hb).
    - unfold mat_mul at 1 2. rewrite <- sumR_sub. unfold mat_mul at 2. apply sumR_ext. intros j _. ring. }
  rewrite (norm_ext n _ _ E). eapply Rle_trans; [apply norm_mul|]. apply Rmult_le_compat_l; [apply norm_nonneg|]. now apply C86_converges.
Qed.

(** In the equations of motion: with mass_mat_iters = k > 0 the matrix applied to the forces is the approximate inverse of the mass
    matrix M, within ||1 - M||^(2^k) if that norm is below one. *)
Theorem C86_forward {P O : Type} (W : widths) (jt : joint_table P) solve (s : System R (plink (params P)) geometry O) q qd tau acc inv : mass_mat_iters s <> 0%nat ->
  forward_dynamics W jt solve s q qd tau = Ok (acc, inv) ->
  exists M n, compute_mass_matrix W jt s = Ok M /\ qd_size W s = Ok n /\
    (mat_norm n (mat_sub eye M) < 1 -> mat_norm n (residual n M inv) <= mat_norm n (mat_sub eye M) ^ (2 ^ mass_mat_iters s)).
Proof.
  intros K H. unfold forward_dynamics in H. destruct (smooth_force _ _ s q qd tau) as [qf|]; [cbn [bind] in H|discriminate].
  destruct (compute_mass_matrix _ _ s) as [M|] eqn:EM; [cbn [bind] in H|discriminate]. destruct (qd_size W s) as [n|] eqn:EN; [cbn [bind] in H|discriminate].
  exists M, n. split; [reflexivity|]. split; [reflexivity|]. destruct (Nat.eqb_spec (mass_mat_iters s) 0); [contradiction|]. injection H as _ <-. intros L.
  assert (E : meq n (mat_sub eye M) (residual n M eye)). { intros a b Ha Hb. unfold residual, mat_sub. now rewrite (mul_eye_r n M a b Ha Hb). }
  rewrite (norm_ext n _ _ E) in *. now apply C86_converges.
Qed.

(** ** What does not hold *)
Lemma norm_1 A : mat_norm 1 A = Rabs (A 0%nat 0%nat).
Proof. unfold mat_norm. cbn [sumR]. replace (0 + (0 + A 0%nat 0%nat * A 0%nat 0%nat)) with (Rsqr (A 0%nat 0%nat)) by (unfold Rsqr; ring). apply sqrt_Rsqr_abs. Qed.
Definition ten : mat := fun _ _ => 10.
(** A single joint with inertia 10: from the second iteration on the answer is 0.3 instead of 0.1, however many iterations are made. *)
Theorem C86_start_refuted k : inv_approximate 1 ten eye (S (S k)) 0%nat 0%nat = 3 / 10 /\ inverse_of 1 (fun _ _ => 1 / 10) ten /\
  mat_norm 1 (residual 1 ten (inv_approximate 1 ten eye (S (S k)))) = 2 /\ mat_norm 1 (residual 1 ten (inv_approximate 1 ten eye 0)) = 1 / 2.
Proof.
  assert (STAY : forall k X r err, X 0%nat 0%nat = 3 / 10 -> err = Rabs (r 0%nat 0%nat) -> 2 <= err -> newton_schulz 1 ten X r err k 0%nat 0%nat = 3 / 10).
  { clear k. induction k as [|k IH]; intros X r err HX -> HR; cbn [newton_schulz]; [exact HX|].
    set (r' := mat_add eye (mat_scale (-1) (mat_mul 1 ten (mat_mul 1 X (mat_add eye r))))).
    assert (V : r' 0%nat 0%nat = -2 - 3 * r 0%nat 0%nat). { unfold r', mat_add, mat_scale, mat_mul, ten, eye. cbn [sumR Nat.eqb]. rewrite HX. field. }
    assert (B : Rabs (r 0%nat 0%nat) <= mat_norm 1 r'). { rewrite norm_1, V. revert HR. generalize (r 0%nat 0%nat). intros x. unfold Rabs. destruct (Rcase_abs x), (Rcase_abs (-2 - 3 * x)); lra. }
    destruct (Rlt_dec (mat_norm 1 r') (Rabs (r 0%nat 0%nat))) as [L|L]; [lra|]. apply IH; [exact HX|now rewrite norm_1|]. lra. }
  assert (R0 : mat_add eye (mat_scale (-1) (mat_mul 1 ten eye)) 0%nat 0%nat = -9). { unfold mat_add, mat_scale, mat_mul, ten, eye. cbn [sumR Nat.eqb]. ring. }
  assert (A9 : Rabs (-9) = 9) by (rewrite Rabs_left; lra).
  assert (ST : inv_approximate 1 ten eye 0 0%nat 0%nat = 1 / 20).
  { unfold inv_approximate. rewrite norm_1, R0, A9. destruct (Rlt_dec 1 9) as [L|L]; [|lra]. cbn [newton_schulz]. unfold mat_scale, mat_trace, mat_mul, mat_trans, ten. cbn [sumR]. field. }
  assert (G : inv_approximate 1 ten eye (S (S k)) 0%nat 0%nat = 3 / 10).
  { unfold inv_approximate. rewrite norm_1, R0, A9. destruct (Rlt_dec 1 9) as [L|L]; [|lra].
    set (X0 := mat_scale _ _). assert (EX0 : X0 0%nat 0%nat = 1 / 20) by (unfold X0, mat_scale, mat_trace, mat_mul, mat_trans, ten; cbn [sumR]; field).
    set (r0 := mat_add eye _) in *. cbn [newton_schulz].
    set (r1 := mat_add eye (mat_scale (-1) (mat_mul 1 ten (mat_mul 1 X0 (mat_add eye r0))))).
    assert (V1 : r1 0%nat 0%nat = 5). { unfold r1, mat_add at 1, mat_scale, mat_mul, ten. cbn [sumR]. rewrite EX0. unfold mat_add. rewrite R0. unfold eye. cbn [Nat.eqb]. field. }
    rewrite (norm_1 r1), V1, (Rabs_right 5) by lra. destruct (Rlt_dec 5 1) as [L1|_]; [lra|].
    set (X2 := mat_mul 1 X0 (mat_add eye r1)). set (r2 := mat_add eye (mat_scale (-1) (mat_mul 1 ten X2))).
    assert (EX2 : X2 0%nat 0%nat = 3 / 10). { unfold X2, mat_mul, mat_add. cbn [sumR]. rewrite EX0, V1. unfold eye. cbn [Nat.eqb]. field. }
    assert (V2 : r2 0%nat 0%nat = -2). { unfold r2, mat_add, mat_scale, mat_mul, ten. cbn [sumR]. rewrite EX2. unfold eye. cbn [Nat.eqb]. field. }
    rewrite (norm_1 r2), V2, (Rabs_left (-2)) by lra. destruct (Rlt_dec (- -2) 5) as [_|L2]; [|lra].
    apply STAY; [exact EX2|rewrite V2, Rabs_left; lra|lra]. }
  split; [exact G|]. split; [|split].
  - intros a b Ha Hb. assert (a = 0%nat) by lia. assert (b = 0%nat) by lia. subst. unfold mat_mul, ten, eye. cbn [sumR Nat.eqb]. field.
  - rewrite norm_1. unfold residual, mat_sub. unfold mat_mul. cbn [sumR]. rewrite G. unfold eye, ten. cbn [Nat.eqb]. rewrite Rabs_left; lra.
  - rewrite norm_1. unfold residual, mat_sub. unfold mat_mul. cbn [sumR]. rewrite ST. unfold eye, ten. cbn [Nat.eqb]. rewrite Rabs_right; lra.
Qed.

(** Two joints whose mass matrix is close to one. *)
Definition near_eye : mat := fun a b => if (a =? b)%nat then 5 / 4 else 1 / 4.
Example C86_example : mat_norm 2 (residual 2 near_eye eye) = 1 / 2 /\ mat_norm 2 (residual 2 near_eye (inv_approximate 2 near_eye eye 4)) <= / 65536.
Proof.
  assert (H : mat_norm 2 (residual 2 near_eye eye) = 1 / 2).
  { unfold mat_norm, residual, mat_sub, mat_mul, near_eye, eye. cbn [sumR Nat.eqb]. match goal with |- sqrt ?x = _ => replace x with (Rsqr (1 / 2)) by (unfold Rsqr; field) end. apply sqrt_Rsqr. lra. }
  split; [exact H|]. eapply Rle_trans; [apply C86_converges; rewrite H; lra|]. rewrite H. cbn [Nat.pow Nat.add Nat.mul]. lra.
Qed.
Print Assumptions C86_error.
