(** * Finite sums and bilinear forms of block matrices. *)
From Coq Require Import Reals Lra ZArith Lia Bool List.
From Verif Require Import Prelude M_Sys M_Math P_Math M_Joint M_Dyn.
Import ListNotations.
Local Open Scope R_scope.

Lemma sumR_ext n f g : (forall k, (k < n)%nat -> f k = g k) -> sumR n f = sumR n g.
Proof.
  induction n as [|n IH]; intros H; cbn [sumR]; auto. rewrite (H n) by lia. rewrite IH; auto.
Qed.
Lemma sumR_0 n f : (forall k, (k < n)%nat -> f k = 0) -> sumR n f = 0.
Proof. induction n as [|n IH]; intros H; cbn [sumR]; auto. rewrite H by lia. rewrite IH; auto. ring. Qed.
Lemma sumR_add n f g : sumR n (fun k => f k + g k) = sumR n f + sumR n g.
Proof. induction n as [|n IH]; cbn [sumR]; [ring|]. rewrite IH. ring. Qed.
Lemma sumR_sub n f g : sumR n (fun k => f k - g k) = sumR n f - sumR n g.
Proof. induction n as [|n IH]; cbn [sumR]; [ring|]. rewrite IH. ring. Qed.
Lemma sumR_scale n c f : sumR n (fun k => c * f k) = c * sumR n f.
Proof. induction n as [|n IH]; cbn [sumR]; [ring|]. rewrite IH. ring. Qed.
Lemma sumR_scale_r n c f : sumR n (fun k => f k * c) = sumR n f * c.
Proof. induction n as [|n IH]; cbn [sumR]; [ring|]. rewrite IH. ring. Qed.
Lemma sumR_swap n m (f : nat -> nat -> R) :
  sumR n (fun a => sumR m (fun b => f a b)) = sumR m (fun b => sumR n (fun a => f a b)).
Proof.
  induction n as [|n IH]; cbn [sumR].
  - symmetry. now apply sumR_0.
  - now rewrite IH, <- sumR_add.
Qed.
Lemma sumR_app n m f : sumR (n + m) f = sumR n f + sumR m (fun k => f (n + k)%nat).
Proof.
  induction m as [|m IH]; cbn [sumR].
  - rewrite Nat.add_0_r. ring.
  - rewrite Nat.add_succ_r. cbn [sumR]. rewrite IH. ring.
Qed.
(** A sum of a function that vanishes outside a slice. *)
Lemma sumR_slice n o w f : (o + w <= n)%nat -> (forall k, (k < n)%nat -> (k < o \/ o + w <= k)%nat -> f k = 0) ->
  sumR n f = sumR w (fun k => f (o + k)%nat).
Proof.
  intros H Z. replace n with (o + (w + (n - o - w)))%nat by lia. rewrite sumR_app, sumR_app.
  rewrite (sumR_0 o) by (intros; apply Z; lia).
  rewrite (sumR_0 (n - o - w)) by (intros; apply Z; lia). ring.
Qed.
Lemma sumR_delta n k f : (k < n)%nat -> (forall j, (j < n)%nat -> j <> k -> f j = 0) -> sumR n f = f k.
Proof.
  intros H Z. rewrite (sumR_slice n k 1 f) by (try lia; intros; apply Z; lia). cbn [sumR]. rewrite Nat.add_0_r. ring.
Qed.
Lemma sumR_nonneg n f : (forall k, (k < n)%nat -> 0 <= f k) -> 0 <= sumR n f.
Proof. induction n as [|n IH]; intros H; cbn [sumR]; [lra|]. pose proof (H n ltac:(lia)). specialize (IH ltac:(auto)). lra. Qed.

(** ** Bilinear forms *)
Definition bil (n : nat) (H : mat) (x y : nat -> R) : R := sumR n (fun a => sumR n (fun b => x a * H a b * y b)).
Definition dia (n : nat) (H : mat) (x y : nat -> R) : R := sumR n (fun a => x a * H a a * y a).

Lemma bil_add n A B x y : bil n (mat_add A B) x y = bil n A x y + bil n B x y.
Proof.
  unfold bil, mat_add. rewrite <- sumR_add. apply sumR_ext. intros a _. rewrite <- sumR_add. apply sumR_ext. intros b _. ring.
Qed.
Lemma bil_trans n A x y : bil n (mat_trans A) x y = bil n A y x.
Proof.
  unfold bil, mat_trans. rewrite sumR_swap. apply sumR_ext. intros a _. apply sumR_ext. intros b _. ring.
Qed.
Lemma bil_diag n d x y : bil n (mat_diag d) x y = sumR n (fun a => x a * getR d a * y a).
Proof.
  unfold bil, mat_diag. apply sumR_ext. intros a Ha. rewrite (sumR_delta n a); auto.
  - now rewrite Nat.eqb_refl.
  - intros j _ Hj. destruct (Nat.eqb_spec a j); [congruence|]. ring.
Qed.
Definition lower_tri (n : nat) (H : mat) : Prop := forall a b, (a < b)%nat -> H a b = 0.
Lemma bil_tril1 n H x y : lower_tri n H -> bil n (tril1 H) x y = bil n H x y - dia n H x y.
Proof.
  intros L. unfold bil, dia, tril1. rewrite <- sumR_sub. apply sumR_ext. intros a Ha.
  assert (E : x a * H a a * y a = sumR n (fun b => if (b =? a)%nat then x a * H a b * y b else 0)).
  2:{ rewrite E. rewrite <- sumR_sub. apply sumR_ext. intros b Hb.
    destruct (Nat.ltb_spec b a), (Nat.eqb_spec b a); try lia; try ring.
    rewrite (L a b) by lia. ring. }
  rewrite (sumR_delta n a); auto.
  - now rewrite Nat.eqb_refl.
  - intros j _ Hj. destruct (Nat.eqb_spec j a); congruence.
Qed.

(** Writing a block into a zero region. *)
Lemma bil_block n H oi wi oj wj B x y : (oi + wi <= n)%nat -> (oj + wj <= n)%nat ->
  (forall a b, (oi <= a < oi + wi)%nat -> (oj <= b < oj + wj)%nat -> H a b = 0) ->
  bil n (set_block H (oi, (oi + wi)%nat) (oj, (oj + wj)%nat) B) x y =
  bil n H x y + sumR wi (fun r => sumR wj (fun c => x (oi + r)%nat * B r c * y (oj + c)%nat)).
Proof.
  intros Hi Hj Z. apply (Rplus_eq_reg_l (- bil n H x y)).
  transitivity (sumR n (fun a => sumR n (fun b =>
     if in_slice (oi, (oi + wi)%nat) a && in_slice (oj, (oj + wj)%nat) b then x a * B (a - oi)%nat (b - oj)%nat * y b else 0))).
  - rewrite Rplus_comm. change (?p + - ?q) with (p - q). unfold bil. rewrite <- sumR_sub. apply sumR_ext. intros a _.
    rewrite <- sumR_sub. apply sumR_ext. intros b _. unfold set_block. cbn [fst].
    unfold in_slice. cbn [fst snd].
    destruct (Nat.leb_spec oi a), (Nat.ltb_spec a (oi + wi)), (Nat.leb_spec oj b), (Nat.ltb_spec b (oj + wj)); cbn [andb]; try ring.
    rewrite (Z a b) by lia. ring.
  - ring_simplify. unfold in_slice; cbn [fst snd]. rewrite (sumR_slice n oi wi).
    + apply sumR_ext. intros r Hr. rewrite (sumR_slice n oj wj).
      * apply sumR_ext. intros c Hc.
        destruct (Nat.leb_spec oi (oi + r)), (Nat.ltb_spec (oi + r) (oi + wi)), (Nat.leb_spec oj (oj + c)), (Nat.ltb_spec (oj + c) (oj + wj)); cbn [andb]; try lia.
        replace (oi + r - oi)%nat with r by lia. replace (oj + c - oj)%nat with c by lia. reflexivity.
      * auto.
      * intros b _ Hb. destruct (Nat.leb_spec oj b), (Nat.ltb_spec b (oj + wj)); cbn [andb]; rewrite ?andb_false_r; auto; lia.
    + auto.
    + intros a _ Ha. apply sumR_0. intros b _.
      destruct (Nat.leb_spec oi a), (Nat.ltb_spec a (oi + wi)); cbn [andb]; auto; lia.
Qed.
Lemma dia_block_off n H oi wi oj wj B x y : (oj + wj <= oi)%nat ->
  dia n (set_block H (oi, (oi + wi)%nat) (oj, (oj + wj)%nat) B) x y = dia n H x y.
Proof.
  intros Hi. unfold dia. apply sumR_ext. intros a _. unfold set_block, in_slice. cbn [fst snd].
  destruct (Nat.leb_spec oi a), (Nat.ltb_spec a (oi + wi)), (Nat.leb_spec oj a), (Nat.ltb_spec a (oj + wj)); cbn [andb]; auto; lia.
Qed.
Lemma dia_block_on n H oi wi B x y : (oi + wi <= n)%nat ->
  (forall a, (oi <= a < oi + wi)%nat -> H a a = 0) ->
  dia n (set_block H (oi, (oi + wi)%nat) (oi, (oi + wi)%nat) B) x y =
  dia n H x y + sumR wi (fun r => x (oi + r)%nat * B r r * y (oi + r)%nat).
Proof.
  intros Hi Z. apply (Rplus_eq_reg_l (- dia n H x y)).
  transitivity (sumR n (fun a => if in_slice (oi, (oi + wi)%nat) a then x a * B (a - oi)%nat (a - oi)%nat * y a else 0)).
  - rewrite Rplus_comm. change (?p + - ?q) with (p - q). unfold dia. rewrite <- sumR_sub. apply sumR_ext. intros a _.
    unfold set_block, in_slice. cbn [fst snd].
    destruct (Nat.leb_spec oi a), (Nat.ltb_spec a (oi + wi)); cbn [andb]; try ring. rewrite (Z a) by lia. ring.
  - ring_simplify. unfold in_slice; cbn [fst snd]. rewrite (sumR_slice n oi wi); auto.
    + apply sumR_ext. intros r Hr. destruct (Nat.leb_spec oi (oi + r)), (Nat.ltb_spec (oi + r) (oi + wi)); cbn [andb]; try lia.
      now rewrite (Nat.add_comm oi r), Nat.add_sub.
    + intros a _ Ha. destruct (Nat.leb_spec oi a), (Nat.ltb_spec a (oi + wi)); cbn [andb]; auto; lia.
Qed.
(** A symmetric block is recovered from its lower triangle. *)
Lemma tril_sym w B x y : (forall r c, (r < w)%nat -> (c < w)%nat -> B r c = B c r) ->
  sumR w (fun r => sumR w (fun c => x r * tril B r c * y c)) + sumR w (fun r => sumR w (fun c => y r * tril B r c * x c))
    - sumR w (fun r => x r * tril B r r * y r)
  = sumR w (fun r => sumR w (fun c => x r * B r c * y c)).
Proof.
  intros Sy. rewrite (sumR_swap w w (fun r c => y r * tril B r c * x c)).
  rewrite <- sumR_add, <- sumR_sub. apply sumR_ext. intros r Hr. rewrite <- sumR_add.
  assert (E : x r * tril B r r * y r = sumR w (fun c => if (c =? r)%nat then x r * tril B r c * y c else 0)).
  2:{ rewrite E. rewrite <- sumR_sub. apply sumR_ext. intros c Hc. unfold tril.
    destruct (Nat.leb_spec c r), (Nat.leb_spec r c), (Nat.eqb_spec c r); try lia; subst; try ring.
    + rewrite (Sy c r) by auto. ring. }
  rewrite (sumR_delta w r); auto.
  - now rewrite Nat.eqb_refl.
  - intros j _ Hj. destruct (Nat.eqb_spec j r); congruence.
Qed.

(** ** Motions *)
Lemma motion_sum_gen ms qd : forall l m0 f,
  m_dot f (fold_left (fun m k => sadd m (sscale (getR qd k) (nth k ms szero))) l m0) =
  m_dot f m0 + fold_right Rplus 0 (map (fun k => getR qd k * m_dot f (nth k ms szero)) l).
Proof.
  induction l as [|k l IH]; intros m0 f; cbn [fold_left map fold_right]; [ring|].
  rewrite IH, m_dot_add_r, m_dot_scale_r. ring.
Qed.
Lemma sum_seq n f : fold_right Rplus 0 (map f (seq 0 n)) = sumR n f.
Proof.
  induction n as [|n IH]; [reflexivity|]. rewrite seq_S, map_app, fold_right_app. cbn [plus map fold_right sumR].
  rewrite <- IH. generalize (map f (seq 0 n)). intros l. induction l; cbn [fold_right]; [ring|]. rewrite IHl. ring.
Qed.
Lemma dot_motion_sum f ms qd :
  m_dot f (motion_sum ms qd) = sumR (length ms) (fun k => getR qd k * m_dot f (nth k ms szero)).
Proof. unfold motion_sum. rewrite motion_sum_gen, m_dot_zero_r, sum_seq. ring. Qed.
