(** * Interpolation: _random.py, cosInterpolate and interpolate. *)
From Coq Require Import Reals Lra Lia ZArith Bool String List Permutation.
From Verif Require Import Prelude M_Math P_Math P_Trig M_Random S_Random.
Import ListNotations.
Local Open Scope R_scope.

Lemma rle_true a b : rle a b = true <-> a <= b.
Proof. unfold rle. destruct (Rle_dec a b); split; intros; try discriminate; auto; contradiction. Qed.
Lemma rle_false a b : rle a b = false <-> b < a.
Proof. unfold rle. destruct (Rle_dec a b); split; intros; try discriminate; auto; lra. Qed.
Lemma rlt_true a b : rlt a b = true <-> a < b.
Proof. unfold rlt. destruct (Rlt_dec a b); split; intros; try discriminate; auto; contradiction. Qed.
Lemma rlt_false a b : rlt a b = false <-> b <= a.
Proof. unfold rlt. destruct (Rlt_dec a b); split; intros; try discriminate; auto; lra. Qed.

Lemma at_nth l i : (0 <= i < Z.of_nat (length l))%Z -> at_ l i = nth (Z.to_nat i) l 0.
Proof. intros H. unfold at_. destruct (Z.ltb_spec i 0); [lia|]. f_equal. lia. Qed.
Lemma at_last l : at_ l (-1) = nth (length l - 1) l 0.
Proof.
  unfold at_. cbn [Z.ltb Z.compare]. replace (Z.to_nat _) with (length l - 1)%nat; [reflexivity|]. destruct l; [reflexivity|cbn [length]; lia].
Qed.
Lemma at_nat l (k : nat) : (k < length l)%nat -> at_ l (Z.of_nat k) = nth k l 0.
Proof. intros H. rewrite at_nth by lia. f_equal. lia. Qed.

Lemma searchsorted_spec xp x : ascending xp -> (searchsorted_right xp x <= length xp)%nat /\
  (forall j, (j < searchsorted_right xp x)%nat -> nth j xp 0 <= x) /\
  (forall j, (searchsorted_right xp x <= j < length xp)%nat -> x < nth j xp 0).
Proof.
  unfold searchsorted_right. induction xp as [|y r IH]; intros A.
  - cbn. split; [lia|]. split; intros; lia.
  - assert (A' : ascending r). { intros i j Hij. apply (A (S i) (S j)). cbn [length]. lia. }
    destruct (IH A') as (L & B & C). cbn [filter length]. destruct (rle y x) eqn:E.
    + apply rle_true in E. cbn [length]. split; [lia|]. split.
      * intros [|j] Hj; cbn [nth]; [exact E|]. apply B. lia.
      * intros [|j] Hj; cbn [nth]; [lia|]. apply C. lia.
    + apply rle_false in E. assert (Z : length (filter (fun y => rle y x) r) = 0%nat).
      { destruct (length (filter (fun y0 => rle y0 x) r)) eqn:E0; [reflexivity|]. exfalso.
        specialize (B 0%nat ltac:(lia)). specialize (A 0%nat 1%nat). destruct r; [cbn in E0; discriminate|]. cbn [length nth] in *. specialize (A ltac:(lia)). lra. }
      rewrite Z in *. split; [lia|]. split; [intros; lia|].
      intros [|j] Hj; cbn [nth]; [exact E|]. apply C. cbn [length] in Hj. lia.
Qed.

Lemma segment_mid xp x k : ascending xp -> (S k < length xp)%nat -> nth k xp 0 <= x < nth (S k) xp 0 -> segment xp x = Z.of_nat (S k).
Proof.
  intros A L [H1 H2]. destruct (searchsorted_spec xp x A) as (B & C & D). unfold segment.
  assert (E : searchsorted_right xp x = S k); [|rewrite E; lia].
  destruct (Nat.lt_trichotomy (searchsorted_right xp x) (S k)) as [E|[E|E]]; [exfalso|exact E|exfalso].
  - specialize (D k ltac:(lia)). lra.
  - specialize (C (S k) E). lra.
Qed.
Lemma segment_end xp x : ascending xp -> (0 < length xp)%nat -> nth (length xp - 1) xp 0 <= x -> segment xp x = (Z.of_nat (length xp) - 1)%Z.
Proof.
  intros A L H. destruct (searchsorted_spec xp x A) as (B & C & D). unfold segment.
  assert (E : searchsorted_right xp x = length xp); [|rewrite E; lia].
  destruct (Nat.eq_dec (searchsorted_right xp x) (length xp)) as [E|E]; [exact E|]. exfalso.
  specialize (D (length xp - 1)%nat ltac:(lia)). lra.
Qed.

(** ** Interpolation with a weight for every segment *)
Definition blend (w : Z -> R -> R) (xp fp : list R) (x : R) : R :=
  let i := segment xp x in
  let dx := at_ xp i - at_ xp (i - 1) in
  let alpha := (x - at_ xp (i - 1)) / dx in
  let f := if Req_EM_T dx 0 then at_ fp i else (1 - w i alpha) * at_ fp (i - 1) + w i alpha * at_ fp i in
  if rlt (at_ xp (-1)) x then at_ fp (-1) else f.

Record ramp (w : R -> R) : Prop := {
  ramp0 : w 0 = 0;
  ramp1 : w 1 = 1;
  ramp_incr : forall a b, 0 <= a -> a < b -> b <= 1 -> w a < w b;
  ramp_onto : forall y, 0 <= y <= 1 -> exists a, 0 <= a <= 1 /\ w a = y
}.
Lemma ramp_in w a : ramp w -> 0 <= a <= 1 -> 0 <= w a <= 1.
Proof.
  intros [W0 W1 WI _] H. split.
  - destruct (Req_dec a 0) as [->|]; [lra|]. rewrite <- W0. left. apply WI; lra.
  - destruct (Req_dec a 1) as [->|]; [lra|]. rewrite <- W1. left. apply WI; lra.
Qed.

Lemma between_blend a b t : 0 <= t <= 1 -> between a b ((1 - t) * a + t * b).
Proof. intros H. unfold between, Rmin, Rmax. destruct (Rle_dec a b); nra. Qed.
Lemma between_weight a b v : a <> b -> between a b v -> exists t, 0 <= t <= 1 /\ v = (1 - t) * a + t * b.
Proof.
  intros N H. exists ((v - a) / (b - a)). split; [|field; lra]. unfold between, Rmin, Rmax in H.
  destruct (Rle_dec a b).
  - split; [apply Rmult_le_pos; [lra|left; apply Rinv_0_lt_compat; lra]|]. apply (Rmult_le_reg_r (b - a)); [lra|]. field_simplify; lra.
  - replace ((v - a) / (b - a)) with ((a - v) / (a - b)) by (field; lra).
    split; [apply Rmult_le_pos; [lra|left; apply Rinv_0_lt_compat; lra]|]. apply (Rmult_le_reg_r (a - b)); [lra|]. field_simplify; lra.
Qed.

Lemma blend_mid w xp fp x k : ascending xp -> length fp = length xp -> (S k < length xp)%nat -> nth k xp 0 <= x < nth (S k) xp 0 ->
  exists alpha, alpha = (x - nth k xp 0) / (nth (S k) xp 0 - nth k xp 0) /\ 0 <= alpha < 1 /\
    blend w xp fp x = (1 - w (Z.of_nat (S k)) alpha) * nth k fp 0 + w (Z.of_nat (S k)) alpha * nth (S k) fp 0.
Proof.
  intros A LF L H. eexists. split; [reflexivity|]. split.
  - split; [apply Rmult_le_pos; [lra|left; apply Rinv_0_lt_compat; lra]|].
    apply (Rmult_lt_reg_r (nth (S k) xp 0 - nth k xp 0)); [lra|]. field_simplify; lra.
  - unfold blend. rewrite (segment_mid xp x k A L H). replace (Z.of_nat (S k) - 1)%Z with (Z.of_nat k) by lia.
    rewrite !at_nat by lia. destruct (Req_EM_T _ _) as [E|E]; [lra|]. rewrite at_last.
    replace (rlt _ _) with false; [reflexivity|]. symmetry. apply rlt_false.
    pose proof (A (S k) (length xp - 1)%nat ltac:(lia)). lra.
Qed.
Lemma blend_end w xp fp x : (forall i, ramp (w i)) -> ascending xp -> length fp = length xp -> (0 < length xp)%nat ->
  nth (length xp - 1) xp 0 <= x -> blend w xp fp x = nth (length xp - 1) fp 0.
Proof.
  intros W A LF L H. unfold blend. rewrite (segment_end xp x A L H), !at_last, LF.
  destruct (rlt _ _) eqn:E; [reflexivity|]. apply rlt_false in E. assert (x = nth (length xp - 1) xp 0) as -> by lra.
  replace (Z.of_nat (length xp) - 1)%Z with (Z.of_nat (length xp - 1)) by lia. rewrite !at_nat by lia.
  destruct (Req_EM_T _ _) as [E0|E0]; [reflexivity|].
  unfold Rdiv. rewrite Rinv_r by exact E0. rewrite (ramp1 _ (W _)). ring.
Qed.

Lemma blend_interpolates w xp fp : (forall i, ramp (w i)) -> ascending xp -> length fp = length xp -> (0 < length xp)%nat ->
  interpolates xp fp (blend w xp fp).
Proof.
  intros W A LF L. split.
  - intros k Hk Hn. destruct (Nat.eq_dec k (length xp - 1)) as [->|N].
    + apply blend_end; auto; lra.
    + destruct (blend_mid w xp fp (nth k xp 0) k A LF ltac:(lia)) as (al & E & _ & ->). { split; [lra|]. apply Hn. lia. }
      replace al with 0. 2:{ rewrite E. unfold Rdiv. rewrite Rminus_eq_0. ring. } rewrite (ramp0 _ (W _)). ring.
  - intros k x Hk Hx. destruct (blend_mid w xp fp x k A LF Hk Hx) as (al & _ & Ha & ->). apply between_blend. apply ramp_in; [apply W|lra].
  - intros k x y Hk H1 H2 H3. destruct (blend_mid w xp fp x k A LF Hk ltac:(lra)) as (al & Ea & Ha & ->).
    destruct (blend_mid w xp fp y k A LF Hk ltac:(lra)) as (be & Eb & Hb & ->).
    assert (al < be). { rewrite Ea, Eb. apply Rmult_lt_compat_r; [apply Rinv_0_lt_compat|]; lra. }
    pose proof (ramp_incr _ (W (Z.of_nat (S k))) al be ltac:(lra) ltac:(lra) ltac:(lra)). split; intros; nra.
  - intros k v Hk Hlt Hv Hne. destruct (Req_dec (nth k fp 0) (nth (S k) fp 0)) as [E|E].
    + exfalso. apply Hne. rewrite E in Hv. unfold between, Rmin, Rmax in Hv. destruct (Rle_dec _ _); lra.
    + destruct (between_weight _ _ _ E Hv) as (t & Ht & ->). destruct (ramp_onto _ (W (Z.of_nat (S k))) t Ht) as (al & Hal & <-).
      assert (N1 : al <> 1). { intros ->. apply Hne. rewrite (ramp1 _ (W _)). ring. }
      assert (X : nth k xp 0 <= nth k xp 0 + al * (nth (S k) xp 0 - nth k xp 0) < nth (S k) xp 0) by nra.
      exists (nth k xp 0 + al * (nth (S k) xp 0 - nth k xp 0)). split; [exact X|].
      destruct (blend_mid w xp fp _ k A LF Hk X) as (be & Eb & _ & ->). replace be with al; [reflexivity|]. rewrite Eb. field. lra.
  - intros x Hx. apply blend_end; auto.
Qed.

(** Values of the table bound the values of the interpolation; also before the first time. *)
Lemma interpolates_in xp fp f lo hi x : ascending xp -> length fp = length xp -> (0 < length xp)%nat -> interpolates xp fp f -> Forall (fun v => lo <= v <= hi) fp ->
  nth 0 xp 0 <= x -> lo <= f x <= hi.
Proof.
  intros A LF L [I1 I2 I3 I4 I5] F Hx. rewrite Forall_forall in F.
  assert (N : forall k, (k < length xp)%nat -> lo <= nth k fp 0 <= hi) by (intros k Hk; apply F, nth_In; lia).
  destruct (Rle_dec (nth (length xp - 1) xp 0) x) as [H|H]; [rewrite I5 by auto; apply N; lia|].
  destruct (searchsorted_spec xp x A) as (B & C & D). set (c := searchsorted_right xp x) in *.
  assert (c <> 0%nat). { intros E. specialize (D 0%nat ltac:(lia)). lra. }
  assert (c <> length xp). { intros E. specialize (C (length xp - 1)%nat ltac:(lia)). lra. }
  assert (X : nth (c - 1) xp 0 <= x < nth (S (c - 1)) xp 0). { split; [apply C; lia|apply D; lia]. }
  specialize (I2 (c - 1)%nat x ltac:(lia) X). pose proof (N (c - 1)%nat ltac:(lia)). pose proof (N (S (c - 1)) ltac:(lia)).
  unfold between, Rmin, Rmax in I2. destruct (Rle_dec _ _); lra.
Qed.

(** ** Cosine *)
Definition cos_weight (a : R) : R := (1 - cos (a * PI)) / 2.
Lemma cos_ramp : ramp cos_weight.
Proof.
  pose proof PI_pos as P. unfold cos_weight. split.
  - rewrite Rmult_0_l, cos_0. lra.
  - rewrite Rmult_1_l, cos_PI. lra.
  - intros a b Ha Hab Hb. assert (cos (b * PI) < cos (a * PI)); [|lra]. apply cos_decreasing_1; nra.
  - intros y Hy. exists (acos (1 - 2 * y) / PI). pose proof (acos_bound (1 - 2 * y)) as B. split.
    + split; [apply Rmult_le_pos; [lra|left; now apply Rinv_0_lt_compat]|]. apply (Rmult_le_reg_r PI); [lra|]. field_simplify; lra.
    + replace (acos (1 - 2 * y) / PI * PI) with (acos (1 - 2 * y)) by (field; lra). rewrite cos_acos by lra. lra.
Qed.
Lemma cos_interpolate_weight x1 x2 a : cos_interpolate x1 x2 a = (1 - cos_weight a) * x1 + cos_weight a * x2.
Proof. unfold cos_interpolate, cos_weight. field. Qed.
Lemma cosInterpolate_blend xp fp x : cosInterpolate xp fp x = blend (fun _ => cos_weight) xp fp x.
Proof. unfold cosInterpolate, blend. cbv zeta. now rewrite cos_interpolate_weight. Qed.

(** ** The monotone change of time *)
Record cdf_ok (cdf : list R) (m : nat) : Prop := {
  cdf_len : length cdf = S m;
  cdf_pos : (0 < m)%nat;
  cdf_0 : nth 0 cdf 0 = 0;
  cdf_1 : nth m cdf 0 = 1;
  cdf_incr : forall i, (i < m)%nat -> nth i cdf 0 < nth (S i) cdf 0
}.
Lemma cdf_le cdf m i j : cdf_ok cdf m -> (i <= j <= m)%nat -> nth i cdf 0 <= nth j cdf 0.
Proof.
  intros C [H1 H2]. induction H1 as [|j H1 IH]; [lra|]. pose proof (cdf_incr _ _ C j ltac:(lia)). specialize (IH ltac:(lia)). lra.
Qed.

Lemma Int_part_nat r k : INR k <= r < INR k + 1 -> Int_part r = Z.of_nat k.
Proof.
  intros H. rewrite INR_IZR_INZ in H. destruct (base_Int_part r) as [A B].
  assert (IZR (Int_part r) < IZR (Z.of_nat k) + 1) as H1 by lra. assert (IZR (Z.of_nat k) < IZR (Int_part r) + 1) as H2 by lra.
  rewrite <- plus_IZR in H1, H2. apply lt_IZR in H1, H2. lia.
Qed.
Lemma Int_part_nonneg r : 0 <= r -> exists k, Int_part r = Z.of_nat k /\ INR k <= r < INR k + 1.
Proof.
  intros H. destruct (base_Int_part r) as [A B]. assert (-1 < IZR (Int_part r)) as H1 by lra. apply lt_IZR in H1.
  exists (Z.to_nat (Int_part r)). split; [lia|]. rewrite INR_IZR_INZ, Z2Nat.id by lia. lra.
Qed.

Lemma biject_piece cdf m i al : cdf_ok cdf m -> (i < m)%nat -> INR i <= al * INR m <= INR i + 1 ->
  biject_alpha cdf al = nth i cdf 0 + (al * INR m - INR i) * (nth (S i) cdf 0 - nth i cdf 0).
Proof.
  intros C Hi H. assert (M : 0 < INR m) by (apply lt_0_INR, C). unfold biject_alpha. rewrite (cdf_len _ _ C), S_INR.
  replace (INR m + 1 - 1) with (INR m) by ring. replace (al / (1 / INR m)) with (al * INR m) by (field; lra).
  destruct (Rlt_dec (al * INR m) (INR i + 1)) as [Hl|Hl].
  - rewrite (Int_part_nat (al * INR m) i) by lra. rewrite <- INR_IZR_INZ.
    replace ((al - INR i * (1 / INR m)) / (1 / INR m)) with (al * INR m - INR i) by (field; lra).
    replace (Z.of_nat i + 1)%Z with (Z.of_nat (S i)) by lia. rewrite !at_nat by (rewrite (cdf_len _ _ C); lia). ring.
  - assert (E : al * INR m = INR (S i)) by (rewrite S_INR; lra). rewrite (Int_part_nat (al * INR m) (S i)) by lra. rewrite <- INR_IZR_INZ.
    replace ((al - INR (S i) * (1 / INR m)) / (1 / INR m)) with (al * INR m - INR (S i)) by (field; lra).
    rewrite !at_nat by (rewrite (cdf_len _ _ C); lia). rewrite E. rewrite S_INR. ring.
Qed.
Lemma piece_of m al : (0 < m)%nat -> 0 <= al < 1 -> exists i, (i < m)%nat /\ INR i <= al * INR m < INR i + 1.
Proof.
  intros Hm H. assert (M : 0 < INR m) by now apply lt_0_INR. destruct (Int_part_nonneg (al * INR m)) as (k & _ & Hk); [nra|].
  exists k. split; [|exact Hk]. apply INR_lt. nra.
Qed.
Lemma find_piece cdf m y : cdf_ok cdf m -> 0 <= y < 1 -> exists i, (i < m)%nat /\ nth i cdf 0 <= y < nth (S i) cdf 0.
Proof.
  intros C H. assert (X : forall n, (n <= m)%nat -> y < nth n cdf 0 -> exists i, (i < n)%nat /\ nth i cdf 0 <= y < nth (S i) cdf 0).
  { induction n as [|n IH]; intros Hn Hy.
    - rewrite (cdf_0 _ _ C) in Hy. lra.
    - destruct (Rlt_dec y (nth n cdf 0)) as [L|L].
      + destruct (IH ltac:(lia) L) as (i & Hi & Hv). exists i. split; [lia|exact Hv].
      + exists n. split; [lia|lra]. }
  apply (X m (le_n m)). rewrite (cdf_1 _ _ C). lra.
Qed.

Lemma biject_ramp cdf m : cdf_ok cdf m -> ramp (biject_alpha cdf).
Proof.
  intros C. pose proof (cdf_pos _ _ C) as P. assert (M : 0 < INR m) by now apply lt_0_INR.
  assert (B1 : biject_alpha cdf 1 = 1).
  { assert (E : INR m = INR (m - 1) + 1) by (rewrite <- S_INR; f_equal; lia).
    rewrite (biject_piece cdf m (m - 1) 1 C) by (lia || lra). replace (S (m - 1)) with m by lia. rewrite (cdf_1 _ _ C), E. ring. }
  split.
  - rewrite (biject_piece cdf m 0 0 C) by (lia || (cbn [INR]; lra)). rewrite (cdf_0 _ _ C). cbn [INR]. ring.
  - exact B1.
  - intros a b Ha Hab Hb.
    destruct (piece_of m a P ltac:(lra)) as (i & Hi & Hia). rewrite (biject_piece cdf m i a C Hi ltac:(lra)).
    pose proof (cdf_incr _ _ C i Hi) as Ii. assert (Hlt : nth i cdf 0 + (a * INR m - INR i) * (nth (S i) cdf 0 - nth i cdf 0) < nth (S i) cdf 0) by nra.
    destruct (Req_dec b 1) as [->|Nb].
    + rewrite B1. pose proof (cdf_le cdf m (S i) m C ltac:(lia)) as L. rewrite (cdf_1 _ _ C) in L. lra.
    + destruct (piece_of m b P ltac:(lra)) as (j & Hj & Hjb). rewrite (biject_piece cdf m j b C Hj ltac:(lra)). pose proof (cdf_incr _ _ C j Hj) as Ij.
      assert (a * INR m < b * INR m) by nra.
      assert (Hij : (i <= j)%nat). { apply Nat.lt_succ_r, INR_lt. rewrite S_INR. lra. }
      destruct (Nat.eq_dec i j) as [<-|N]; [nra|]. pose proof (cdf_le cdf m (S i) j C ltac:(lia)). nra.
  - intros y Hy. destruct (Req_dec y 1) as [->|Ny]; [exists 1; split; [lra|exact B1]|].
    destruct (find_piece cdf m y C ltac:(lra)) as (i & Hi & Hv).
    set (t := (y - nth i cdf 0) / (nth (S i) cdf 0 - nth i cdf 0)).
    assert (T : 0 <= t < 1).
    { unfold t. split; [apply Rmult_le_pos; [lra|left; apply Rinv_0_lt_compat; lra]|].
      apply (Rmult_lt_reg_r (nth (S i) cdf 0 - nth i cdf 0)); [lra|]. field_simplify; lra. }
    pose proof (pos_INR i) as Pi. assert (Si : INR i + 1 <= INR m) by (rewrite <- S_INR; apply le_INR; lia).
    exists ((INR i + t) / INR m). assert (E : (INR i + t) / INR m * INR m = INR i + t) by (field; lra). split.
    + split; [apply Rmult_le_pos; [lra|left; now apply Rinv_0_lt_compat]|]. apply (Rmult_le_reg_r (INR m)); [lra|]. rewrite E. lra.
    + rewrite (biject_piece cdf m i _ C Hi) by (rewrite E; lra). rewrite E. unfold t. field. lra.
Qed.

(** ** The drawn distribution functions *)
Lemma cumsum_from_length s l : length (cumsum_from s l) = length l.
Proof. revert s; induction l; intros; cbn [cumsum_from length]; auto. Qed.
Lemma cumsum_steps l : forall s i, (S i < length l)%nat -> nth (S i) (cumsum_from s l) 0 = nth i (cumsum_from s l) 0 + nth (S i) l 0.
Proof.
  induction l as [|x r IH]; intros s i Hi; cbn [length] in Hi; [lia|]. destruct i as [|i].
  - destruct r as [|y r]; cbn [length] in Hi; [lia|]. reflexivity.
  - cbn [cumsum_from nth]. apply (IH (s + x) i). lia.
Qed.
Lemma cdf_of dy : (0 < length dy)%nat -> Forall (fun y => 0 < y) dy -> cdf_ok (normalised (cumsum (0 :: dy))) (length dy).
Proof.
  intros L F. set (c := cumsum (0 :: dy)). assert (LC : length c = S (length dy)) by (unfold c, cumsum; now rewrite cumsum_from_length).
  assert (ST : forall i, (i < length dy)%nat -> nth (S i) c 0 = nth i c 0 + nth i dy 0).
  { intros i Hi. unfold c, cumsum. rewrite cumsum_steps by (cbn [length]; lia). reflexivity. }
  assert (C0 : nth 0 c 0 = 0) by (unfold c; cbn; ring).
  assert (IN : forall i, (i < length dy)%nat -> nth i c 0 < nth (S i) c 0).
  { intros i Hi. rewrite ST by exact Hi. rewrite Forall_forall in F. specialize (F _ (nth_In dy 0 Hi)). cbn beta in F. lra. }
  assert (LP : 0 < nth (length dy) c 0).
  { assert (X : forall n, (n < length dy)%nat -> 0 < nth (S n) c 0).
    { induction n as [|n IH]; intros Hn; [specialize (IN 0%nat Hn); lra|]. specialize (IN (S n) Hn). specialize (IH ltac:(lia)). lra. }
    specialize (X (length dy - 1)%nat ltac:(lia)). now replace (S (length dy - 1)) with (length dy) in X by lia. }
  unfold normalised. rewrite at_last, LC. replace (S (length dy) - 1)%nat with (length dy) by lia.
  set (z := nth (length dy) c 0) in *. assert (IZ : 0 < / z) by now apply Rinv_0_lt_compat.
  assert (NT : forall i, nth i (map (fun y => y / z) c) 0 = nth i c 0 / z).
  { intros i. replace 0 with (0 / z) at 1 by (unfold Rdiv; ring). apply (map_nth (fun y => y / z)). }
  split.
  - now rewrite map_length.
  - exact L.
  - rewrite NT, C0. unfold Rdiv. ring.
  - rewrite NT. fold z. field. lra.
  - intros i Hi. rewrite !NT. apply Rmult_lt_compat_r; [exact IZ|]. auto.
Qed.

Lemma scaled_ge u lo hi : lo <= scaled u lo hi.
Proof. apply Rmax_l. Qed.
Lemma scaled_lt u lo hi : 0 <= u < 1 -> lo < hi -> lo <= scaled u lo hi < hi.
Proof. intros U H. split; [apply Rmax_l|]. unfold scaled, Rmax. destruct (Rle_dec _ _); nra. Qed.
Lemma scaled_le u lo hi : 0 <= u < 1 -> scaled u lo hi <= Rmax lo hi.
Proof. intros U. unfold scaled, Rmax. destruct (Rle_dec _ _), (Rle_dec _ _); nra. Qed.

Section Fair.
Context {K : Type}.
Variable g : rng K.
Hypothesis FAIR : fair g.

Lemma uniforms_positive k n : length (uniforms g k n (1 / 10 ^ 6) 1) = n /\ Forall (fun y => 0 < y) (uniforms g k n (1 / 10 ^ 6) 1).
Proof.
  destruct (fair_units _ FAIR k n) as [L _]. unfold uniforms. split; [now rewrite map_length|].
  apply Forall_forall. intros y Hy. apply in_map_iff in Hy. destruct Hy as (u & <- & _). pose proof (scaled_ge u (1 / 10 ^ 6) 1). lra.
Qed.
Lemma cumsum_nat_length l : forall s, length (cumsum_nat s l) = length l.
Proof. induction l; intros; cbn [cumsum_nat length]; auto. Qed.

Lemma generate_cdf_ok bmin bmax : (0 < match bmax with None => bmin | Some m => m end)%nat -> (match bmax with None => True | Some m => bmin <= m end)%nat ->
  exists gen, generate_cdf g bmin bmax = Ok gen /\ forall key, cdf_ok (gen key) (match bmax with None => bmin | Some m => m end).
Proof.
  intros P B. destruct bmax as [m|]; cbn [generate_cdf].
  - unfold assert_. apply Nat.leb_le in B. rewrite B. cbn [bind]. eexists. split; [reflexivity|]. intros key. cbv beta zeta.
    match goal with |- context [r_perm g ?c ?l] => set (msk := r_perm g c l); pose proof (Permutation_length (fair_perm _ FAIR c l)) as PL end.
    assert (LM : length msk = m).
    { fold msk in PL. now rewrite map_length, seq_length in PL. }
    match goal with |- cdf_ok (normalised (cumsum (0 :: ?d))) _ => set (dy := d) end.
    assert (LD : length dy = m) by (unfold dy; rewrite map_length, cumsum_nat_length; exact LM).
    rewrite <- LD. apply cdf_of; [lia|]. apply Forall_forall. intros y Hy. unfold dy in Hy. apply in_map_iff in Hy. destruct Hy as (c & <- & _).
    match goal with |- 0 < at_ (uniforms g ?k ?n _ _) _ => destruct (uniforms_positive k n) as [LU FU] end.
    unfold at_. rewrite Forall_forall in FU. apply FU. apply nth_In. rewrite LU. lia.
  - eexists. split; [reflexivity|]. intros key. destruct (uniforms_positive key bmin) as [LU FU]. rewrite <- LU at 2. apply cdf_of; [now rewrite LU|exact FU].
Qed.

Lemma interpolate_blend bmin bmax method xp fp key :
  (0 < match bmax with None => bmin | Some m => m end)%nat -> (match bmax with None => True | Some m => bmin <= m end)%nat ->
  method = "cosine"%string \/ method = "linear"%string ->
  exists f w, interpolate g bmin bmax method xp fp key = Ok f /\ (forall i, ramp (w i)) /\ forall x, f x = blend w xp fp x.
Proof.
  intros P B M. destruct (generate_cdf_ok bmin bmax P B) as (gen & E & C). unfold interpolate. rewrite E. cbn [bind].
  replace (_ =? 0)%nat with false by (symmetry; apply Nat.eqb_neq; lia). cbn [bind].
  set (k := fun i : Z => r_split g key (length xp + 1) (S (Z.to_nat (if (i - 1 <? 0)%Z then i - 1 + Z.of_nat (length xp) else i - 1)%Z))).
  destruct M as [-> | ->]; cbn [two_point_interp String.eqb Ascii.eqb Bool.eqb bind]; (eexists; eexists; split; [reflexivity|split]).
  2:{ intros x. cbv zeta. rewrite cos_interpolate_weight. unfold blend. instantiate (1 := fun i a => cos_weight (biject_alpha (gen (k i)) a)). reflexivity. }
  - intros i. cbv beta. pose proof (biject_ramp _ _ (C (k i))) as [b0 b1 bi bo]. pose proof (ramp_in _ 0 (biject_ramp _ _ (C (k i)))). destruct cos_ramp as [c0 c1 ci co]. split.
    + now rewrite b0.
    + now rewrite b1.
    + intros a b Ha Hab Hb. pose proof (ramp_in _ a (biject_ramp _ _ (C (k i))) ltac:(lra)). pose proof (ramp_in _ b (biject_ramp _ _ (C (k i))) ltac:(lra)).
      apply ci; try lra. apply bi; lra.
    + intros y Hy. destruct (co y Hy) as (a & Ha & <-). destruct (bo a Ha) as (c & Hc & <-). now exists c.
  - intros i. instantiate (1 := fun i a => biject_alpha (gen (k i)) a). apply (biject_ramp _ _ (C (k i))).
  - intros x. unfold blend. reflexivity.
Qed.
End Fair.
