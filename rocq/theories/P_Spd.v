(** * Symmetric positive definite systems of equations have a solution. *)
From Coq Require Import Reals Lra ZArith Lia Bool List.
From Verif Require Import Prelude M_Sys M_Math M_Geom M_Joint M_Kin M_Dyn P_Mat.
Local Open Scope R_scope.

(** Symmetric and positive definite of size n. *)
Definition spd (n : nat) (A : mat) : Prop :=
  (forall a b, (a < n)%nat -> (b < n)%nat -> A a b = A b a) /\
  forall x, (exists a, (a < n)%nat /\ x a <> 0) -> 0 < sumR n (fun a => sumR n (fun b => x a * A a b * x b)).
(** The contract of jax.scipy.linalg.solve(A, eye, assume_a="pos"). *)
Definition solves (solve : nat -> mat -> mat) : Prop :=
  forall n A, spd n A -> forall a b, (a < n)%nat -> (b < n)%nat -> sumR n (fun k => A a k * solve n A k b) = eye a b.

(** Gaussian elimination from the last row. *)
Fixpoint gauss (n : nat) (A : mat) (f : nat -> R) : nat -> R :=
  match n with
  | 0%nat => fun _ => 0
  | S k =>
      let d := A k k in
      let z := gauss k (fun a b => A a b - A a k * A k b / d) (fun a => f a - A a k * f k / d) in
      fun b => if (b =? k)%nat then (f k - sumR k (fun b => A k b * z b)) / d else z b
  end.
Definition solve_gauss (n : nat) (A : mat) : mat := fun a b => gauss n A (fun i => eye i b) a.

Lemma spd_pivot k A : spd (S k) A -> 0 < A k k.
Proof.
  intros [_ H]. set (x := fun a => if (a =? k)%nat then 1 else 0).
  assert (X : x k = 1) by (unfold x; now rewrite Nat.eqb_refl).
  specialize (H x). rewrite (sumR_delta (S k) k) in H.
  - rewrite (sumR_delta (S k) k) in H; [rewrite X in H; rewrite Rmult_1_l, Rmult_1_r in H; apply H; exists k; split; [lia|lra]|lia|].
    intros j _ Hj. unfold x at 2. apply Nat.eqb_neq in Hj. rewrite Hj. ring.
  - lia.
  - intros j _ Hj. apply sumR_0. intros b _. unfold x at 1. apply Nat.eqb_neq in Hj. rewrite Hj. ring.
Qed.
Lemma spd_schur k A : spd (S k) A -> spd k (fun a b => A a b - A a k * A k b / A k k).
Proof.
  intros S. pose proof (spd_pivot k A S) as D. destruct S as [Sy Po]. split.
  - intros a b Ha Hb. rewrite (Sy a b), (Sy a k), (Sy k b) by lia. field. lra.
  - intros x (a0 & Ha0 & Hx). set (d := A k k) in *.
    set (c := sumR k (fun b => A k b * x b)). set (y := fun a => if (a =? k)%nat then - c / d else x a).
    assert (Yk : y k = - c / d) by (unfold y; now rewrite Nat.eqb_refl).
    assert (Yx : forall a, (a < k)%nat -> y a = x a). { intros a Ha. unfold y. destruct (Nat.eqb_spec a k); [lia|reflexivity]. }
    assert (P : 0 < sumR (S k) (fun a => sumR (S k) (fun b => y a * A a b * y b))).
    { apply Po. exists a0. split; [lia|]. now rewrite Yx. }
    eapply Rlt_le_trans; [exact P|]. right. cbn [sumR]. fold d.
    assert (C' : sumR k (fun a => A a k * x a) = c) by (unfold c; apply sumR_ext; intros a Ha; rewrite (Sy a k) by lia; ring).
    transitivity (sumR k (fun a => sumR k (fun b => x a * A a b * x b)) - c * c / d).
    + rewrite sumR_add. rewrite (sumR_ext k (fun a => sumR k (fun b => y a * A a b * y b)) (fun a => sumR k (fun b => x a * A a b * x b))).
      2:{ intros a Ha. apply sumR_ext. intros b Hb. now rewrite !Yx. }
      rewrite (sumR_ext k (fun a => y a * A a k * y k) (fun a => (A a k * x a) * (- c / d))).
      2:{ intros a Ha. rewrite Yk, (Yx a) by auto. ring. }
      rewrite (sumR_ext k (fun b => y k * A k b * y b) (fun b => (- c / d) * (A k b * x b))).
      2:{ intros b Hb. rewrite Yk, (Yx b) by auto. ring. }
      rewrite sumR_scale_r, sumR_scale, C', Yk. fold c. field. lra.
    + rewrite (sumR_ext k (fun a => sumR k (fun b => x a * (A a b - A a k * A k b / d) * x b)) (fun a => sumR k (fun b => x a * A a b * x b) - (A a k * x a) * (c / d))).
      2:{ intros a Ha. replace (A a k * x a * (c / d)) with ((A a k * x a / d) * c) by (field; lra). unfold c. rewrite <- (sumR_scale k (A a k * x a / d)), <- sumR_sub. apply sumR_ext. intros. field. lra. }
      rewrite sumR_sub, sumR_scale_r, C'. field. lra.
Qed.
Lemma gauss_correct n : forall A f, spd n A -> forall a, (a < n)%nat -> sumR n (fun b => A a b * gauss n A f b) = f a.
Proof.
  induction n as [|k IH]; intros A f S a Ha; [lia|]. pose proof (spd_pivot k A S) as D.
  specialize (IH _ (fun a => f a - A a k * f k / A k k) (spd_schur k A S)). cbn [gauss]. set (z := gauss k _ _) in *.
  set (d := A k k) in *. cbn [sumR]. rewrite Nat.eqb_refl.
  rewrite (sumR_ext k _ (fun b => A a b * z b)). 2:{ intros b Hb. destruct (Nat.eqb_spec b k); [lia|reflexivity]. }
  destruct (Nat.eq_dec a k) as [->|N].
  - fold d. field. lra.
  - specialize (IH a ltac:(lia)). cbv beta in IH.
    rewrite (sumR_ext k _ (fun b => A a b * z b - (A a k / d) * (A k b * z b))) in IH by (intros; field; lra).
    rewrite sumR_sub, sumR_scale in IH. set (c := sumR k (fun b => A k b * z b)) in *.
    assert (E : sumR k (fun b => A a b * z b) = f a - A a k * f k / d + A a k / d * c) by lra. rewrite E. field. lra.
Qed.
Lemma solve_gauss_solves : solves solve_gauss.
Proof. intros n A S a b Ha Hb. unfold solve_gauss. now apply (gauss_correct n A (fun i => eye i b)). Qed.
