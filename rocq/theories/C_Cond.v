(** * C36 (smoothing and delay), C59 (physical attachment), C62 (signal conditioning and the whole IMU). *)
From Coq Require Import Reals Lra ZArith Lia Bool String List Permutation.
From Verif Require Import Prelude M_Sys M_Math P_Math P_Trig P_Rot M_Geom M_Joint M_Sens C_Sens.
Import ListNotations.
Local Open Scope R_scope.

(** ** C59: the sensor attached by a spring and a damper *)
Lemma diffs_length dt ps : length (diffs dt ps) = (length ps - 1)%nat.
Proof. induction ps as [|a [|b r] IH]; auto. cbn [diffs length] in *. rewrite IH. lia. Qed.
Lemma qp_scan_length dt zps : forall st, length (qp_scan dt st zps) = length zps.
Proof. induction zps; intros st; cbn [qp_scan length]; auto. Qed.
Theorem C59_count ps dt : ps <> [] -> exists out, quasi_physical ps dt = Ok out /\ length out = length ps.
Proof.
  intros H. destruct ps as [|p r]; [contradiction|]. eexists. split; [reflexivity|].
  rewrite qp_scan_length, combine_length. cbn [length]. rewrite diffs_length. cbn [length]. lia.
Qed.
Lemma qp_scan_rest dt p : forall n, qp_scan dt (p, vzero) (repeat (p, vzero) n) = repeat p n.
Proof.
  induction n as [|n IH]; auto. cbn [repeat qp_scan]. cbv zeta. assert (E : qp_step dt (p, vzero) (p, vzero) = (p, vzero)).
  { unfold qp_step. cbn [fst snd]. f_equal; destruct p; vring. }
  rewrite E. cbn [fst]. now rewrite IH.
Qed.
Theorem C59_rest p n dt : (0 < n)%nat -> quasi_physical (repeat p n) dt = Ok (repeat p n).
Proof.
  intros H. destruct n as [|n]; [lia|]. cbn [repeat quasi_physical]. f_equal. change (p :: repeat p n) with (repeat p (S n)).
  replace (combine (repeat p (S n)) (vzero :: diffs dt (repeat p (S n)))) with (repeat (p, vzero) (S n)); [apply qp_scan_rest|].
  cbn [repeat combine]. f_equal. clear H. induction n as [|n IH]; auto. cbn [repeat diffs combine] in *. rewrite <- IH. do 2 f_equal. destruct p; vring.
Qed.
Lemma qp_scan_firstn dt : forall zps st k, qp_scan dt st (firstn k zps) = firstn k (qp_scan dt st zps).
Proof. induction zps as [|z zps IH]; intros st [|k]; auto. cbn [firstn qp_scan]. cbv zeta. now rewrite IH. Qed.
Lemma combine_firstn_l {A B} : forall (a : list A) (b : list B) k, combine (firstn k a) (firstn k b) = firstn k (combine a b).
Proof. induction a as [|x a IH]; intros [|y b] [|k]; cbn; auto. now rewrite IH. Qed.
Lemma diffs_firstn dt : forall ps k, diffs dt (firstn (S k) ps) = firstn k (diffs dt ps).
Proof. induction ps as [|a [|b r] IH]; intros [|k]; auto. cbn [firstn diffs]. f_equal. apply (IH k). Qed.
(** The sensor's trajectory up to any time depends on the body's trajectory up to that time only. *)
Theorem C59_causal ps dt k out : (0 < k)%nat -> quasi_physical ps dt = Ok out -> quasi_physical (firstn k ps) dt = Ok (firstn k out).
Proof.
  intros Hk H. destruct k as [|k]; [lia|]. destruct ps as [|p r]; [discriminate|]. cbn [quasi_physical] in H. injection H as <-.
  change (firstn (S k) (p :: r)) with (p :: firstn k r). cbn [quasi_physical]. f_equal. change (p :: firstn k r) with (firstn (S k) (p :: r)).
  rewrite diffs_firstn. change (vzero :: firstn k (diffs dt (p :: r))) with (firstn (S k) (vzero :: diffs dt (p :: r))).
  rewrite combine_firstn_l. apply qp_scan_firstn.
Qed.
(** The world frame does not matter. *)
Definition move (r : quat) (t : vec3) (p : vec3) : vec3 := vadd (rotate p r) t.
Theorem C59_world_frame ps dt r t : quasi_physical (map (move r t) ps) dt =
  match quasi_physical ps dt with Ok out => Ok (map (move r t) out) | Err e => Err e end.
Proof.
  assert (D : forall l, diffs dt (map (move r t) l) = map (fun v => rotate v r) (diffs dt l)).
  { induction l as [|a [|b l] IH]; auto. cbn [map diffs] in *. rewrite IH. f_equal. rewrite rotate_scale, rotate_sub. unfold move.
    generalize (rotate a r) (rotate b r). intros [] []. destruct t. vring. }
  assert (S : forall zps p v, qp_scan dt (move r t p, rotate v r) (map (fun z => (move r t (fst z), rotate (snd z) r)) zps) =
                         map (move r t) (qp_scan dt (p, v) zps)).
  { induction zps as [|[z w] zps IH]; intros p v; auto. cbn [map qp_scan]. cbv zeta.
    assert (E : qp_step dt (move r t p, rotate v r) (move r t z, rotate w r) = (move r t (fst (qp_step dt (p, v) (z, w))), rotate (snd (qp_step dt (p, v) (z, w))) r)).
    { unfold qp_step, move. cbn [fst snd]. f_equal; rewrite ?rotate_add, ?rotate_scale, ?rotate_add, ?rotate_scale, ?rotate_sub; [|clear; vring].
      repeat (rewrite ?rotate_add, ?rotate_scale, ?rotate_sub). vring. }
    cbn [fst snd]. rewrite E. cbn [fst]. rewrite IH. now destruct (qp_step dt (p, v) (z, w)). }
  destruct ps as [|p0 ps]; [reflexivity|]. unfold quasi_physical. cbn [map]. f_equal. rewrite <- S, rotate_zero. f_equal.
  change (move r t p0 :: map (move r t) ps) with (map (move r t) (p0 :: ps)). rewrite D. rewrite <- (rotate_zero r) at 1.
  change (rotate vzero r :: map (fun v => rotate v r) (diffs dt (p0 :: ps))) with (map (fun v => rotate v r) (vzero :: diffs dt (p0 :: ps))).
  generalize (p0 :: ps) (vzero :: diffs dt (p0 :: ps)). induction l as [|x l IH]; intros [|y l']; cbn; auto. now rewrite IH.
Qed.
(** The sensor is a unit mass pulled to the body by a spring and a damper: its discrete acceleration is the damping times
    the difference of the velocities plus the stiffness times the displacement.  It starts on the body, at rest
    ([nth (k - 1)] is [nth 0] at the start, so the first velocity is zero). *)
Definition vn (l : list vec3) (k : nat) : vec3 := nth k l vzero.
Definition rate (dt : R) (a b : vec3) : vec3 := vscale (/ dt) (vsub b a).
Lemma rate_step dt v a : dt <> 0 -> rate dt v (vadd v (vscale dt a)) = a.
Proof. intros H. unfold rate. destruct v, a. vunfold. f_equal; field; exact H. Qed.
Lemma qp_scan_nth dt zps : forall st k, (k < length zps)%nat -> vn (qp_scan dt st zps) k = fst (fold_left (qp_step dt) (firstn (S k) zps) st).
Proof. induction zps as [|z zps IH]; intros st [|k] H; cbn [length] in H; try lia; cbn [qp_scan]; cbv zeta; [reflexivity|]. unfold vn in *. cbn [nth firstn fold_left]. apply IH. lia. Qed.
Lemma firstn_S_snoc {A} (d : A) : forall l k, (k < length l)%nat -> firstn (S k) l = firstn k l ++ [nth k l d].
Proof. induction l as [|a l IH]; intros [|k] H; cbn [length] in H; try lia; [reflexivity|]. cbn [firstn nth app]. f_equal. apply IH. lia. Qed.
Lemma diffs_nth dt : forall ps k, (S k < length ps)%nat -> vn (diffs dt ps) k = rate dt (vn ps k) (vn ps (S k)).
Proof. induction ps as [|a [|b r] IH]; intros k H; cbn [length] in H; try lia. destruct k as [|k]; [reflexivity|]. apply (IH k). cbn [length]. lia. Qed.
Theorem C59_spring_damper ps dt out : dt <> 0 -> quasi_physical ps dt = Ok out ->
  vn out 0 = vn ps 0 /\
  forall k, (S k < length ps)%nat ->
    rate dt (rate dt (vn out (k - 1)) (vn out k)) (rate dt (vn out k) (vn out (S k))) =
    vadd (vscale 35 (vsub (rate dt (vn ps k) (vn ps (S k))) (rate dt (vn out (k - 1)) (vn out k))))
         (vscale 625 (vsub (vn ps (S k)) (vn out k))).
Proof.
  intros Hdt H. destruct ps as [|p0 r]; [discriminate|]. cbn [quasi_physical] in H. injection H as <-. set (ps := p0 :: r).
  set (zps := combine ps (vzero :: diffs dt ps)).
  assert (LZ : length zps = length ps) by (unfold zps; rewrite combine_length; cbn [length]; rewrite diffs_length; unfold ps; cbn [length]; lia).
  assert (ZN : forall k, (k < length ps)%nat -> nth k zps (vzero, vzero) = (vn ps k, vn (vzero :: diffs dt ps) k)).
  { intros k Hk. unfold zps. rewrite combine_nth; [reflexivity|]. cbn [length]. rewrite diffs_length. unfold ps. cbn [length]. lia. }
  set (st := fun k => fold_left (qp_step dt) (firstn (S k) zps) (p0, vzero)).
  assert (S0 : st 0%nat = (p0, vzero)).
  { unfold st. rewrite (firstn_S_snoc (vzero, vzero)) by (rewrite LZ; unfold ps; cbn [length]; lia). cbn [firstn app fold_left]. rewrite ZN by (unfold ps; cbn [length]; lia).
    unfold vn, ps, qp_step. cbn [nth fst snd]. clear. f_equal; vring. }
  assert (SS : forall k, (S k < length ps)%nat -> st (S k) = qp_step dt (st k) (vn ps (S k), rate dt (vn ps k) (vn ps (S k)))).
  { intros k Hk. unfold st. rewrite (firstn_S_snoc (vzero, vzero) zps (S k)) by lia. rewrite fold_left_app. cbn [fold_left]. rewrite ZN by lia. f_equal. f_equal. change (vn (vzero :: diffs dt ps) (S k)) with (vn (diffs dt ps) k). now apply diffs_nth. }
  assert (ON : forall k, (k < length ps)%nat -> vn (qp_scan dt (p0, vzero) zps) k = fst (st k)) by (intros k Hk; apply qp_scan_nth; lia).
  split; [rewrite ON by (unfold ps; cbn [length]; lia); now rewrite S0|].
  assert (VN : forall k, (k < length ps)%nat -> rate dt (fst (st (k - 1)%nat)) (fst (st k)) = snd (st k)).
  { intros [|k] Hk; [cbn [Nat.sub]; rewrite S0; unfold rate; cbn [fst snd]; clear; destruct p0; vring|]. replace (S k - 1)%nat with k by lia. rewrite (SS k Hk). destruct (st k) as [pk vk]. unfold qp_step. cbn [fst snd]. unfold rate.
    generalize (vadd (vscale qp_damp (vsub (vscale (/ dt) (vsub (vn ps (S k)) (vn ps k))) vk)) (vscale qp_stif (vsub (vn ps (S k)) pk))). intros a. destruct pk, vk, a. vunfold. f_equal; field; auto. }
  intros k Hk. rewrite !ON by lia. rewrite (VN k) by lia. pose proof (VN (S k) Hk) as V1. replace (S k - 1)%nat with k in V1 by lia. rewrite V1. rewrite (SS k Hk). destruct (st k) as [pk vk]. cbn [fst snd qp_step].
  unfold qp_step. cbn [fst snd]. unfold qp_damp, qp_stif. apply rate_step. exact Hdt.
Qed.
Example C59_example : exists out, quasi_physical [V3 0 0 0; V3 1 0 0; V3 1 1 0] (1 / 100) = Ok out /\ length out = 3%nat /\
  nth_error out 1 = Some (V3 (3500 / 10000 + 625 / 10000) 0 0).
Proof.
  eexists. split; [reflexivity|]. split; [reflexivity|]. cbn [nth_error qp_scan combine diffs]. unfold qp_step, qp_damp, qp_stif. cbn [fst snd]. f_equal.
  vunfold. f_equal; field.
Qed.

(** ** C36: moving average *)
Definition vsum (l : list vec3) : vec3 := fold_right vadd vzero l.
Lemma vsum_cons x l : vsum (x :: l) = vadd x (vsum l). Proof. reflexivity. Qed.
Lemma vsum_app a b : vsum (a ++ b) = vadd (vsum a) (vsum b).
Proof. induction a as [|x a IH]; [now rewrite vadd_0_l|]. cbn [app]. rewrite !vsum_cons, IH. apply vadd_assoc. Qed.
Lemma vsum_perm a b : Permutation a b -> vsum a = vsum b.
Proof. induction 1; rewrite ?vsum_cons; auto; [congruence| |congruence]. rewrite !vadd_assoc. f_equal. apply vadd_comm. Qed.
Lemma rev_seq_map w : rev (seq 0 w) = map (fun i => (w - 1 - i)%nat) (seq 0 w).
Proof.
  apply nth_error_ext. intros i. destruct (Nat.lt_ge_cases i w) as [H|H].
  2:{ rewrite !(proj2 (nth_error_None _ _)); auto; rewrite ?map_length, ?rev_length, seq_length; auto. }
  rewrite nth_error_map, !nth_error_nth' with (d := 0%nat) by (rewrite ?rev_length, seq_length; auto).
  rewrite rev_nth, seq_length, !seq_nth by (rewrite ?seq_length; lia). cbn [option_map]. f_equal. lia.
Qed.
Lemma fold_zip k : forall (g : nat -> list vec3) l acc a, nth_error acc k = Some a ->
  (forall i, In i l -> exists v, nth_error (g i) k = Some v) ->
  nth_error (fold_left (fun acc i => zipwith vadd acc (g i)) l acc) k = Some (vadd a (vsum (map (fun i => nth k (g i) vzero) l))).
Proof.
  induction l as [|i l IH]; intros acc a H G; cbn [fold_left map]; [cbn [vsum fold_right]; now rewrite vadd_0_r|]. destruct (G i (or_introl eq_refl)) as (v & Hv).
  erewrite IH; [|rewrite nth_error_zipwith, H, Hv; reflexivity|intros; apply G; now right].
  rewrite vsum_cons, (nth_error_nth _ _ _ Hv). now rewrite vadd_assoc.
Qed.
Lemma fold_zip_length (g : nat -> list vec3) L : (forall i, length (g i) = L) -> forall l acc, length acc = L ->
  length (fold_left (fun acc i => zipwith vadd acc (g i)) l acc) = L.
Proof. intros G. induction l as [|i l IH]; intros acc H; cbn; auto. apply IH. rewrite zipwith_length, G, H. lia. Qed.
Lemma roll_length {A} i (l : list A) d : length (roll i l d) = length l.
Proof. unfold roll. now rewrite map_length, seq_length. Qed.
Lemma roll_nth {A} i (l : list A) d j : (j < length l)%nat -> (0 <= Z.of_nat j - i < Z.of_nat (length l))%Z ->
  nth_error (roll i l d) j = Some (nth (Z.to_nat (Z.of_nat j - i)) l d).
Proof.
  intros H B. unfold roll. rewrite nth_error_map, nth_error_nth' with (d := 0%nat) by now rewrite seq_length.
  rewrite seq_nth by auto. cbn [option_map Nat.add]. now rewrite Z.mod_small by auto.
Qed.
(** Sample [k]; outside the signal the first or last one is repeated. *)
Definition held (arr : list vec3) (k : Z) : vec3 := nth (Z.to_nat (Z.max 0 (Z.min (Z.of_nat (length arr) - 1) k))) arr vzero.
Definition half (w : nat) : nat := ((w - 1) / 2)%nat.
Lemma half_odd w : (w mod 2 = 1)%nat -> w = (2 * half w + 1)%nat.
Proof.
  intros H. unfold half. pose proof (Nat.div_mod w 2 ltac:(lia)). rewrite H in H0.
  replace (w - 1)%nat with ((w / 2) * 2)%nat by lia. rewrite Nat.div_mul; lia.
Qed.
Theorem C36_moving_average arr w : arr <> [] -> (w mod 2 = 1)%nat -> (1 < w)%nat ->
  exists out, moving_average arr w = Ok out /\ length out = length arr /\
    forall k, (k < length arr)%nat ->
      nth_error out k = Some (vscale (/ INR w) (vsum (map (fun d => held arr (Z.of_nat k - Z.of_nat (half w) + Z.of_nat d)) (seq 0 w)))).
Proof.
  intros H0 H1 H2. unfold moving_average. rewrite (proj2 (Nat.eqb_eq _ _) H1), (proj2 (Nat.ltb_lt _ _) H2). cbn [assert_ bind].
  destruct arr as [|a0 ar]; [contradiction|]. set (arr := a0 :: ar) in *. fold (half w). set (hw := half w).
  assert (HW : w = (2 * hw + 1)%nat) by now apply half_odd. set (N := length arr). set (padded := repeat a0 hw ++ arr ++ repeat (last arr a0) hw).
  assert (LP : length padded = (N + 2 * hw)%nat) by (unfold padded; rewrite !app_length, !repeat_length; fold N; lia).
  set (z := map (fun _ => vzero) padded). set (g := fun i => roll (Z.of_nat i - Z.of_nat hw) padded vzero).
  assert (LG : forall i, length (g i) = (N + 2 * hw)%nat) by (intros; unfold g; now rewrite roll_length).
  assert (LZ : length z = (N + 2 * hw)%nat) by (unfold z; now rewrite map_length).
  set (sum := fold_left _ _ _). assert (LS : length sum = (N + 2 * hw)%nat) by (apply (fold_zip_length g); auto).
  eexists. split; [reflexivity|]. split; [rewrite firstn_length, skipn_length, map_length, LS; fold N; lia|].
  intros k Hk. fold N in Hk. rewrite nth_error_firstn by auto. rewrite nth_error_skipn, nth_error_map.
  assert (R : forall i, In i (seq 0 (2 * hw + 1)) -> nth_error (g i) (hw + k) = Some (held arr (Z.of_nat k + Z.of_nat hw - Z.of_nat i))).
  { intros i Hi. apply in_seq in Hi. unfold g. rewrite roll_nth by lia. f_equal.
    replace (Z.to_nat (Z.of_nat (hw + k) - (Z.of_nat i - Z.of_nat hw))) with (k + 2 * hw - i)%nat by lia.
    unfold held. fold N. unfold padded. destruct (Nat.lt_ge_cases (k + 2 * hw - i) hw) as [C|C].
    - rewrite app_nth1 by (rewrite repeat_length; lia).
      replace (Z.to_nat (Z.max 0 (Z.min (Z.of_nat N - 1) (Z.of_nat k + Z.of_nat hw - Z.of_nat i)))) with 0%nat by lia.
      cbn [nth arr]. apply (repeat_spec hw). apply nth_In. now rewrite repeat_length.
    - rewrite app_nth2, repeat_length by (rewrite repeat_length; lia). destruct (Nat.lt_ge_cases (k + 2 * hw - i - hw) N) as [C2|C2].
      + rewrite app_nth1 by auto. f_equal. lia.
      + rewrite app_nth2 by auto. fold N. replace (Z.to_nat (Z.max 0 (Z.min (Z.of_nat N - 1) (Z.of_nat k + Z.of_nat hw - Z.of_nat i)))) with (N - 1)%nat by lia.
        transitivity (last arr a0).
        * apply (repeat_spec hw). apply nth_In. rewrite repeat_length. lia.
        * rewrite last_nth. fold N. apply nth_indep. fold N. unfold N, arr. cbn [length]. lia. }
  assert (Z0 : nth_error z (hw + k) = Some vzero).
  { unfold z. rewrite nth_error_map, nth_error_nth' with (d := vzero) by lia. reflexivity. }
  change sum with (fold_left (fun acc i => zipwith vadd acc (g i)) (seq 0 (2 * hw + 1)) z). rewrite (fold_zip (hw + k) g (seq 0 (2 * hw + 1)) z vzero Z0) by (intros i Hi; rewrite (R i Hi); eauto).
  cbn [option_map]. do 2 f_equal. rewrite vadd_0_l. rewrite <- HW in *.
  transitivity (vsum (map (fun i => held arr (Z.of_nat k + Z.of_nat hw - Z.of_nat i)) (seq 0 w))).
  - f_equal. apply map_ext_in. intros i Hi. apply nth_error_nth. now apply R.
  - rewrite (vsum_perm _ _ (Permutation_rev _)), <- map_rev, rev_seq_map, map_map. f_equal. apply map_ext_in. intros i Hi. apply in_seq in Hi. f_equal. lia.
Qed.

Lemma vsum_repeat v n : vsum (repeat v n) = vscale (INR n) v.
Proof.
  induction n as [|n IH]; [cbn [repeat INR]; unfold vsum; cbn [fold_right]; now rewrite vscale_0|]. cbn [repeat]. rewrite vsum_cons, IH, S_INR. vring.
Qed.
Lemma map_const {A B} (f : A -> B) b l : (forall x, In x l -> f x = b) -> map f l = repeat b (length l).
Proof. induction l as [|x l IH]; intros H; cbn; auto. rewrite IH by (intros; apply H; now right). f_equal. apply H. now left. Qed.
Lemma held_repeat v n k : (0 < n)%nat -> held (repeat v n) k = v.
Proof. intros H. unfold held. apply (repeat_spec n). apply nth_In. rewrite repeat_length. lia. Qed.
(** A constant signal is kept. *)
Theorem C36_constant v n w : (0 < n)%nat -> (w mod 2 = 1)%nat -> (1 < w)%nat -> moving_average (repeat v n) w = Ok (repeat v n).
Proof.
  intros Hn H1 H2. assert (H0 : repeat v n <> []) by (destruct n; [lia|discriminate]).
  destruct (C36_moving_average _ w H0 H1 H2) as (out & E & L & R). rewrite repeat_length in *. rewrite E. f_equal. apply nth_error_ext. intros k.
  destruct (Nat.lt_ge_cases k n) as [Hk|Hk].
  2:{ rewrite !(proj2 (nth_error_None _ _)); auto; rewrite ?repeat_length; lia. }
  rewrite (R k Hk), nth_error_repeat by auto. f_equal. rewrite (map_const _ v) by (intros; now apply held_repeat).
  rewrite seq_length, vsum_repeat, vscale_vscale, Rinv_l by (apply not_0_INR; lia). apply vscale_1.
Qed.
(** The mean stays within any bounds of the samples of its window, coordinate by coordinate. *)
Definition in_box (lo hi v : vec3) : Prop := vx lo <= vx v <= vx hi /\ vy lo <= vy v <= vy hi /\ vz lo <= vz v <= vz hi.
Lemma vsum_box lo hi l : Forall (in_box lo hi) l -> in_box (vscale (INR (length l)) lo) (vscale (INR (length l)) hi) (vsum l).
Proof.
  unfold in_box. induction 1 as [|v l H F IH]; [unfold vsum, vscale, vzero; cbn; lra|]. cbn [length]. rewrite vsum_cons, S_INR. unfold vscale, vadd in *. cbn [vx vy vz] in *. lra.
Qed.
Theorem C36_range arr w out k v lo hi : (w mod 2 = 1)%nat -> (1 < w)%nat -> moving_average arr w = Ok out -> nth_error out k = Some v ->
  (forall d, (d < w)%nat -> in_box lo hi (held arr (Z.of_nat k - Z.of_nat (half w) + Z.of_nat d))) -> in_box lo hi v.
Proof.
  intros H1 H2 E Hv B. assert (H0 : arr <> []) by (intros ->; unfold moving_average in E; rewrite (proj2 (Nat.eqb_eq _ _) H1), (proj2 (Nat.ltb_lt _ _) H2) in E; discriminate).
  destruct (C36_moving_average arr w H0 H1 H2) as (o & E' & L & R). rewrite E in E'. injection E' as <-.
  assert (Hk : (k < length arr)%nat) by (rewrite <- L; apply nth_error_Some; congruence). rewrite (R k Hk) in Hv. injection Hv as <-.
  set (l := map _ _). assert (F : Forall (in_box lo hi) l).
  { unfold l. apply Forall_map, Forall_forall. intros d Hd. apply in_seq in Hd. apply B. lia. }
  assert (LL : length l = w) by (unfold l; now rewrite map_length, seq_length). apply vsum_box in F. rewrite LL in F. clearbody l.
  assert (P : 0 < INR w) by (apply lt_0_INR; lia). assert (PI' : 0 < / INR w) by now apply Rinv_0_lt_compat.
  assert (G : forall a b, INR w * a <= b -> a <= / INR w * b).
  { intros a b H. apply Rmult_le_reg_l with (INR w); auto. rewrite <- Rmult_assoc, Rinv_r, Rmult_1_l by lra. exact H. }
  assert (G' : forall a b, b <= INR w * a -> / INR w * b <= a).
  { intros a b H. apply Rmult_le_reg_l with (INR w); auto. rewrite <- Rmult_assoc, Rinv_r, Rmult_1_l by lra. exact H. }
  unfold in_box, vscale in *. cbn [vx vy vz] in *. destruct F as ((A1 & A2) & (A3 & A4) & (A5 & A6)). auto 10.
Qed.

(** ** Delay *)
Theorem C36_delay d arr : length (delay_by d arr) = length arr /\
  forall k, (k < length arr)%nat -> nth_error (delay_by d arr) k = if (k <? d)%nat then Some vzero else nth_error arr (k - d).
Proof.
  unfold delay_by. destruct (Nat.ltb_spec 0 d) as [H|H].
  - split; [rewrite upto_neg_length, app_length, repeat_length by auto; lia|]. intros k Hk.
    rewrite nth_error_upto by (rewrite ?app_length, ?repeat_length; lia). destruct (Nat.ltb_spec k d).
    + rewrite nth_error_app1 by now rewrite repeat_length. now apply nth_error_repeat.
    + rewrite nth_error_app2, repeat_length by now rewrite repeat_length. reflexivity.
  - split; auto. intros k Hk. destruct (Nat.ltb_spec k d); [lia|]. f_equal. lia.
Qed.
(** Smoothing with the default delay uses no future sample. *)
Theorem C36_causal arr arr' w k out out' : arr <> [] -> length arr' = length arr -> (w mod 2 = 1)%nat -> (1 < w)%nat -> (k < length arr)%nat ->
  (forall j, (j <= k)%nat -> nth_error arr' j = nth_error arr j) ->
  moving_average arr w = Ok out -> moving_average arr' w = Ok out' ->
  nth_error (delay_by (half w) out') k = nth_error (delay_by (half w) out) k.
Proof.
  intros H0 HL H1 H2 Hk A E E'. destruct (C36_moving_average arr w H0 H1 H2) as (o & EE & L & R).
  destruct (C36_moving_average arr' w) as (o' & EE' & L' & R'); auto; [destruct arr', arr; cbn in HL; congruence|].
  rewrite E in EE. rewrite E' in EE'. injection EE as <-. injection EE' as <-. rewrite HL in *.
  rewrite (proj2 (C36_delay (half w) out') k), (proj2 (C36_delay (half w) out) k) by lia. destruct (Nat.ltb_spec k (half w)); auto.
  rewrite R, R' by lia. do 3 f_equal. apply map_ext_in. intros d Hd. apply in_seq in Hd. unfold held. rewrite HL.
  apply half_odd in H1. set (i := Z.to_nat _). assert (Hi : (i <= k)%nat) by (unfold i; lia).
  assert (Li : (i < length arr)%nat) by (unfold i; lia). pose proof (A i Hi) as B.
  rewrite !nth_error_nth' with (d := vzero) in B by (rewrite ?HL; lia). now injection B.
Qed.

(** ** Butterworth filter of the position *)
Lemma bw_sum fs fc : let c := bw_coeffs fs fc in bw_b0 c + bw_b1 c + bw_b2 c + bw_a1 c + bw_a2 c = 1.
Proof.
  cbv zeta. unfold bw_coeffs. cbn [bw_b0 bw_b1 bw_b2 bw_a1 bw_a2]. set (i := 1 / tan _). set (q := sqrt 2).
  assert (Q : q * q = 2) by (unfold q; apply sqrt_sqrt; lra). assert (D : 1 + q * i + i ^ 2 <> 0).
  { assert (0 <= (i + q / 2) * (i + q / 2)) by apply Rle_0_sqr. nra. }
  field. exact D.
Qed.
Lemma bw_scan_length c xs : forall x1 x2 y1 y2, length (bw_scan c x1 x2 y1 y2 xs) = length xs.
Proof. induction xs; intros; cbn [bw_scan length]; auto. Qed.
Lemma bw_forward_length c xs : (3 <= length xs)%nat -> exists out, bw_forward c xs = Ok out /\ length out = length xs.
Proof.
  intros H. destruct xs as [|x0 [|x1 [|x2 r]]]; cbn [length] in H; try lia. cbn [bw_forward]. eexists. split; [reflexivity|].
  rewrite !app_length, !firstn_length, bw_scan_length. cbn [length]. lia.
Qed.
Theorem C62_butterworth_count xs fs fc : (3 <= length xs)%nat -> exists out, butterworth xs fs fc = Ok out /\ length out = length xs.
Proof.
  intros H. unfold butterworth. destruct (bw_forward_length (bw_coeffs fs fc) xs H) as (f & -> & L). cbn [bind].
  destruct (bw_forward_length (bw_coeffs fs fc) (rev f)) as (b & -> & L2); [rewrite rev_length; lia|]. cbn [bind].
  eexists. split; [reflexivity|]. rewrite rev_length, L2, rev_length. auto.
Qed.
(** Fewer than three samples fail. *)
Theorem C62_butterworth_too_short xs fs fc : (length xs < 3)%nat -> butterworth xs fs fc = Err EIndex.
Proof. destruct xs as [|a [|b [|c r]]]; cbn [length]; intros H; auto. lia. Qed.
(** Moving the whole signal rigidly moves the filtered signal the same way. *)
Lemma bw_scan_move fs fc r t xs : let c := bw_coeffs fs fc in let m := move r t in forall x1 x2 y1 y2,
  bw_scan c (m x1) (m x2) (m y1) (m y2) (map m xs) = map m (bw_scan c x1 x2 y1 y2 xs).
Proof.
  cbv zeta. pose proof (bw_sum fs fc) as S. cbv zeta in S. revert S. generalize (bw_coeffs fs fc). intros c S.
  induction xs as [|x xs IH]; intros; auto. cbn [map bw_scan]. cbv zeta.
  set (y := vadd (vadd (vadd (vadd (vscale (bw_b0 c) x) _) _) _) _).
  match goal with |- ?a :: _ = _ => assert (E : a = move r t y) end.
  { unfold y, move. rewrite !rotate_add, !rotate_scale. generalize (rotate x r) (rotate x1 r) (rotate x2 r) (rotate y1 r) (rotate y2 r). intros. clear IH y.
    replace (bw_a2 c) with (1 - (bw_b0 c + bw_b1 c + bw_b2 c + bw_a1 c)) by lra. generalize (bw_b0 c) (bw_b1 c) (bw_b2 c) (bw_a1 c). intros. clear S. vring. }
  rewrite E. now rewrite IH.
Qed.
Theorem C62_butterworth_world_frame xs fs fc r t : butterworth (map (move r t) xs) fs fc =
  match butterworth xs fs fc with Ok out => Ok (map (move r t) out) | Err e => Err e end.
Proof.
  unfold butterworth. set (c := bw_coeffs fs fc).
  assert (F : forall l, bw_forward c (map (move r t) l) = match bw_forward c l with Ok o => Ok (map (move r t) o) | Err e => Err e end).
  { intros [|a [|b l]]; auto. cbn [map bw_forward]. unfold c. rewrite bw_scan_move. now rewrite !map_app, !firstn_map. }
  rewrite F. destruct (bw_forward c xs) as [f|]; auto. cbn [bind]. rewrite <- map_rev, F. destruct (bw_forward c (rev f)) as [b|]; auto.
  cbn [bind]. now rewrite map_rev.
Qed.
Lemma bw_scan_const fs fc v n : let c := bw_coeffs fs fc in bw_scan c v v v v (repeat v n) = repeat v n.
Proof.
  cbv zeta. pose proof (bw_sum fs fc) as S. cbv zeta in S. revert S. generalize (bw_coeffs fs fc). intros c S.
  induction n as [|n IH]; auto. cbn [repeat bw_scan]. cbv zeta.
  match goal with |- ?a :: _ = _ => assert (E : a = v) end.
  { clear IH. replace (bw_a2 c) with (1 - (bw_b0 c + bw_b1 c + bw_b2 c + bw_a1 c)) by lra. generalize (bw_b0 c) (bw_b1 c) (bw_b2 c) (bw_a1 c). intros. clear S. vring. }
  rewrite E. now rewrite IH.
Qed.
Theorem C62_butterworth_constant v n fs fc : (3 <= n)%nat -> butterworth (repeat v n) fs fc = Ok (repeat v n).
Proof.
  intros H. assert (F : bw_forward (bw_coeffs fs fc) (repeat v n) = Ok (repeat v n)).
  { destruct n as [|[|[|n]]]; try lia. cbn [repeat bw_forward]. change (v :: repeat v n) with (repeat v (S n)). rewrite bw_scan_const. reflexivity. }
  unfold butterworth. rewrite F. cbn [bind]. rewrite rev_repeat, F. cbn [bind]. now rewrite rev_repeat.
Qed.

(** ** The whole IMU *)
Definition shift_world (r : quat) (t : vec3) (x : transform) : transform := Tr (move r t (t_pos x)) (qmul (t_rot x) (qinv r)).
Definition rotate_field (o : imu_opts) (r : quat) : imu_opts :=
  mkImu (o_s2s o) (o_quasi o) (o_pos_cutoff o) (o_rot_cutoff o) (option_map (fun m => rotate m r) (o_mag o)) (o_second o) (o_acc_n o)
    (o_smooth o) (o_delay o) (o_noise o) (o_natural o).
(** Options that make sense for [n] samples. *)
Definition usable (o : imu_opts) (n : nat) : Prop :=
  (0 < o_acc_n o)%nat /\ (3 * o_acc_n o <= n)%nat /\
  (forall w, o_smooth o = Some w -> (w mod 2 = 1)%nat /\ (1 < w)%nat) /\
  (forall d, o_noise o = Some d -> forall s, length (fst (d s)) = n).

Lemma lowpass_length c f qs : length (quat_lowpassfilter c f false qs) = length qs.
Proof. unfold quat_lowpassfilter, lowpass_pass. cbv zeta. destruct qs; auto. cbn [map length]. now rewrite map_length, lowpass_loop_length. Qed.
Lemma lowpass_right c f qs s : qunit s -> quat_lowpassfilter c f false (map (fun x => qmul x s) qs) = map (fun x => qmul x s) (quat_lowpassfilter c f false qs).
Proof.
  intros Hs. unfold quat_lowpassfilter, lowpass_pass. cbv zeta. destruct qs as [|q0 qs]; auto. cbn [map]. set (al := _ / (1 + _)). clearbody al.
  assert (ST : forall y x, lowpass_step al (qmul y s) (qmul x s) = qmul (lowpass_step al y x) s).
  { intros y x. unfold lowpass_step. cbv zeta. replace (qmul (qmul x s) (qinv (qmul y s))) with (qmul x (qinv y)).
    - destruct (quat_to_rot_axis (qmul x (qinv y))) as [n a]. destruct (Rlt_dec a 0); apply qmul_assoc.
    - rewrite qinv_mul, <- !qmul_assoc. f_equal. now rewrite qmul_assoc, qmul_inv_r, qmul_1_l. }
  assert (LO : forall l y, lowpass_loop al (qmul y s) (map (fun x => qmul x s) l) = map (fun x => qmul x s) (lowpass_loop al y l)).
  { induction l as [|x l IH]; intros y; auto. cbn [map lowpass_loop]. cbv zeta. now rewrite ST, IH. }
  assert (NO : forall y, qnormalize (qmul y s) = qmul (qnormalize y) s).
  { intros y. unfold qnormalize. rewrite qnorm2_mul, Hs, Rmult_1_r. vring. }
  rewrite LO, NO. f_equal. rewrite !map_map. apply map_ext. auto.
Qed.
Lemma zipwith_map {A A' B B' C} (f : A' -> B' -> C) (g : A -> A') (h : B -> B') : forall a b,
  zipwith f (map g a) (map h b) = zipwith (fun x y => f (g x) (h y)) a b.
Proof. induction a as [|x a IH]; intros [|y b]; auto. cbn. f_equal. apply IH. Qed.
Lemma map_zipwith {A B C D} (f : A -> B -> C) (g : C -> D) : forall a b, map g (zipwith f a b) = zipwith (fun x y => g (f x y)) a b.
Proof. induction a as [|x a IH]; intros [|y b]; auto. cbn. f_equal. apply IH. Qed.

Section Imu.
Context (o : imu_opts) (xs : list transform) (g : vec3) (dt : R).
Let N := length xs.
Hypothesis U : usable o N.
Let xs1 := match o_s2s o with Some r => map (t_mul (Tr vzero r)) xs | None => xs end.
Let rot := match o_rot_cutoff o with Some f => quat_lowpassfilter f (1 / dt) false (map t_rot xs1) | None => map t_rot xs1 end.
Lemma N3 : (3 <= N)%nat. Proof using U. destruct U as (A & B & _). clear - A B. lia. Qed.
Lemma xs1_length : length xs1 = N. Proof. unfold xs1. destruct (o_s2s o); rewrite ?map_length; auto. Qed.
Lemma rot_length : length rot = N. Proof. unfold rot. destruct (o_rot_cutoff o); rewrite ?lowpass_length, map_length; apply xs1_length. Qed.
Lemma pos_ok : exists p1 p2, length p2 = N /\
  (if o_quasi o then quasi_physical (map t_pos xs1) dt else Ok (map t_pos xs1)) = Ok p1 /\
  match o_pos_cutoff o with Some f => butterworth p1 (1 / dt) f | None => Ok p1 end = Ok p2.
Proof.
  pose proof N3 as H3. assert (L1 : length (map t_pos xs1) = N) by (rewrite map_length; apply xs1_length).
  assert (A : exists p1, length p1 = N /\ (if o_quasi o then quasi_physical (map t_pos xs1) dt else Ok (map t_pos xs1)) = Ok p1).
  { destruct (o_quasi o); [|eauto]. destruct (C59_count (map t_pos xs1) dt) as (p1 & E & L).
    - intros E. rewrite E in L1. cbn [length] in L1. clear - L1 H3. lia.
    - exists p1. split; [congruence|auto]. }
  destruct A as (p1 & LP & E1). exists p1. destruct (o_pos_cutoff o) as [f|]; [|eauto].
  destruct (C62_butterworth_count p1 (1 / dt) f) as (p2 & E2 & L2); [rewrite LP; exact H3|]. exists p2. split; [congruence|auto].
Qed.
Lemma after_ok (ms : list (string * list vec3)) : Forall (fun m => length (snd m) = N) ms ->
  exists ms1, match o_smooth o with
           | Some w => mapM (fun m => do a <- moving_average (snd m) w; Ok (fst m, a)) ms
           | None => Ok ms
           end = Ok ms1 /\ map fst ms1 = map fst ms /\ Forall (fun m => length (snd m) = N) ms1.
Proof.
  intros F. destruct U as (_ & _ & W & _). pose proof N3 as H3. destruct (o_smooth o) as [w|]; [|eauto]. destruct (W w eq_refl) as [W1 W2].
  induction F as [|[nm a] ms E F IH]; [exists []; auto|]. destruct IH as (ms1 & E1 & E2 & F1). cbn [snd] in E.
  destruct (C36_moving_average a w) as (out & EO & LO & _); auto; [intros ->; cbn [length] in E; clear - E H3; lia|].
  exists ((nm, out) :: ms1). cbn [mapM snd fst]. rewrite EO. cbn [bind]. rewrite E1. cbn [bind map fst]. rewrite E2. split; [reflexivity|]. split; [reflexivity|].
  constructor; auto. cbn [snd]. congruence.
Qed.
(** With usable options the IMU always delivers, for every sensor, as many readings as poses. *)
Theorem C62_imu_total : exists ms, imu o xs g dt = Ok ms /\
  map fst ms = ["acc"; "gyr"]%string ++ (match o_mag o with Some _ => ["mag"%string] | None => [] end) /\
  Forall (fun m => length (snd m) = length xs) ms.
Proof.
  fold N. destruct pos_ok as (p1 & p2 & LP & E1 & E2). unfold imu. fold xs1. cbv zeta. rewrite E1. cbn [bind]. rewrite E2. cbn [bind]. fold rot.
  pose proof N3 as H3. pose proof rot_length as LR. destruct U as (U1 & U2 & U3 & U4).
  assert (LZ : length (zipwith Tr p2 rot) = N) by (rewrite zipwith_length, LP, LR; apply Nat.min_id).
  destruct (C34_reading (zipwith Tr p2 rot) g dt (o_acc_n o) U1) as (acc & EA & LA & _); [rewrite LZ; exact U2|]. rewrite EA. cbn [bind].
  destruct (C35_reading rot dt (o_second o)) as (gyr & EG & LG & _); [rewrite LR; unfold gyro_step; destruct (o_second o); clear - H3; lia|]. rewrite EG. cbn [bind].
  set (ms := _ ++ _). assert (FM : Forall (fun m => length (snd m) = N) ms).
  { unfold ms. repeat apply Forall_cons; cbn [snd]; try congruence. destruct (o_mag o); repeat constructor. cbn [snd]. unfold magnetometer. now rewrite map_length. }
  assert (NM : map fst ms = ["acc"; "gyr"]%string ++ (match o_mag o with Some _ => ["mag"%string] | None => [] end)).
  { unfold ms. rewrite map_app. cbn [map fst]. now destruct (o_mag o). }
  clearbody ms. destruct (after_ok ms FM) as (ms1 & -> & E3 & F1). cbn [bind]. rewrite <- NM, <- E3. clear NM E3 FM. set (d := match o_delay o with Some _ => _ | None => _ end). clearbody d.
  set (ms2 := map _ ms1). assert (E4 : map fst ms2 = map fst ms1) by (unfold ms2; rewrite map_map; reflexivity).
  assert (F2 : Forall (fun m => length (snd m) = N) ms2).
  { unfold ms2. apply Forall_map. eapply Forall_impl; [|exact F1]. intros [nm a] H. cbn [snd] in *. now rewrite (proj1 (C36_delay d a)). }
  clearbody ms2. rewrite <- E4. clear E4 F1.
  assert (A : exists ms3, match o_noise o with
           | Some draw => mapM (fun m => do a <- add_noise_bias (Some (fst (draw (fst m)))) (Some (snd (draw (fst m)))) (snd m); Ok (fst m, a)) ms2
           | None => Ok ms2
           end = Ok ms3 /\ map fst ms3 = map fst ms2 /\ Forall (fun m => length (snd m) = N) ms3).
  { destruct (o_noise o) as [draw|]; [|eauto]. specialize (U4 draw eq_refl). clear - F2 U4.
    induction F2 as [|[nm a] l H F IH]; [exists []; auto|]. destruct IH as (l3 & E & E' & F3). cbn [snd] in H. cbn [mapM fst snd].
    unfold add_noise_bias at 1. rewrite bcast2_eq by (rewrite U4; exact H). cbn [bind]. rewrite E. cbn [bind]. eexists. split; [reflexivity|].
    cbn [map fst]. rewrite E'. split; [reflexivity|]. constructor; auto. cbn [snd]. rewrite map_length, zipwith_length, U4, H. apply Nat.min_id. }
  destruct A as (ms3 & -> & E5 & F3). cbn [bind]. eexists. split; [reflexivity|]. rewrite <- E5. destruct (o_natural o); [|auto]. split; [rewrite map_map; reflexivity|].
  apply Forall_map. eapply Forall_impl; [|exact F3]. intros [nm a] H. cbn [snd fst] in *. unfold rescale_natural.
  destruct (String.eqb nm "gyr"); [now rewrite map_length|]. destruct (String.eqb nm "acc"); [now rewrite map_length|exact H].
Qed.
(** No sensor reading depends on the choice of the world frame. *)
Theorem C62_imu_world_frame r t : qunit r ->
  imu (rotate_field o r) (map (shift_world r t) xs) (rotate g r) dt = imu o xs g dt.
Proof.
  intros Hr. destruct pos_ok as (p1 & p2 & LP & E1 & E2). pose proof N3 as H3. pose proof rot_length as LR. destruct U as (U1 & U2 & _ & _).
  unfold imu. cbn [rotate_field o_s2s o_quasi o_pos_cutoff o_rot_cutoff o_mag o_second o_acc_n o_smooth o_delay o_noise o_natural].
  fold xs1. cbv zeta. fold rot. rewrite E1. cbn [bind]. rewrite E2. cbn [bind].
  set (xs1' := match o_s2s o with Some q => map (t_mul (Tr vzero q)) (map (shift_world r t) xs) | None => _ end).
  assert (X : xs1' = map (shift_world r t) xs1).
  { unfold xs1', xs1. destruct (o_s2s o) as [q|]; auto. rewrite !map_map. apply map_ext. intros [p a]. unfold shift_world, t_mul, move. cbn [t_pos t_rot].
    f_equal; [rewrite !rotate_zero, !vadd_0_r; reflexivity|apply qmul_assoc]. }
  assert (XP : map t_pos xs1' = map (move r t) (map t_pos xs1)) by (rewrite X, !map_map; reflexivity).
  assert (XR : map t_rot xs1' = map (fun x => qmul x (qinv r)) (map t_rot xs1)) by (rewrite X, !map_map; reflexivity).
  rewrite XP, XR. clear XP XR X xs1'. assert (Hi : qunit (qinv r)) by now apply qunit_inv.
  replace (if o_quasi o then quasi_physical (map (move r t) (map t_pos xs1)) dt else Ok (map (move r t) (map t_pos xs1))) with (Ok (map (move r t) p1)).
  2:{ destruct (o_quasi o); [rewrite C59_world_frame, E1; reflexivity|injection E1 as <-; reflexivity]. }
  cbn [bind].
  replace (match o_pos_cutoff o with Some f => butterworth (map (move r t) p1) (1 / dt) f | None => Ok (map (move r t) p1) end) with (Ok (map (move r t) p2)).
  2:{ destruct (o_pos_cutoff o); [rewrite C62_butterworth_world_frame, E2; reflexivity|injection E2 as <-; reflexivity]. }
  cbn [bind].
  replace (match o_rot_cutoff o with Some f => quat_lowpassfilter f (1 / dt) false (map (fun x => qmul x (qinv r)) (map t_rot xs1)) | None => map (fun x => qmul x (qinv r)) (map t_rot xs1) end)
    with (map (fun x => qmul x (qinv r)) rot).
  2:{ unfold rot. destruct (o_rot_cutoff o); [now rewrite lowpass_right|reflexivity]. }
  replace (zipwith Tr (map (move r t) p2) (map (fun x => qmul x (qinv r)) rot)) with (map (shift_world r t) (zipwith Tr p2 rot)).
  2:{ rewrite zipwith_map, map_zipwith. reflexivity. }
  assert (LZ : length (zipwith Tr p2 rot) = N) by (rewrite zipwith_length, LP, LR; apply Nat.min_id).
  unfold shift_world, move. rewrite C34_world_frame by (auto; rewrite LZ; exact U2).
  rewrite C35_world_frame by (auto; rewrite LR; unfold gyro_step; destruct (o_second o); clear - H3; lia).
  replace (match option_map (fun m => rotate m r) (o_mag o) with Some m => [("mag"%string, magnetometer (map (fun x => qmul x (qinv r)) rot) m)] | None => [] end)
    with (match o_mag o with Some m => [("mag"%string, magnetometer rot m)] | None => [] end); [reflexivity|].
  destruct (o_mag o) as [m|]; auto. cbn [option_map]. do 2 f_equal. unfold magnetometer. rewrite map_map. apply map_ext. intros q. now rewrite rotate_mul, rotate_inv_l.
Qed.
End Imu.

Definition demo_imu : imu_opts := mkImu (Some (Q4 (3 / 5) 0 (4 / 5) 0)) true (Some 10) (Some 15) (Some (V3 1 0 (-2))) true 2 (Some 3%nat) None
  (Some (fun _ => (repeat (V3 (1 / 100) 0 0) 7, V3 0 0 (1 / 2)))) true.
Example C62_example : usable demo_imu 7.
Proof.
  unfold usable, demo_imu. cbn [o_acc_n o_smooth o_noise]. split; [lia|]. split; [lia|]. split.
  - intros w E. injection E as <-. split; [reflexivity|lia].
  - intros d E s. injection E as <-. reflexivity.
Qed.
Example C36_example : moving_average [V3 0 0 0; V3 3 0 0; V3 0 6 0] 3 = Ok [V3 1 0 0; V3 1 2 0; V3 1 4 0].
Proof.
  destruct (C36_moving_average [V3 0 0 0; V3 3 0 0; V3 0 6 0] 3) as (out & E & L & R); [discriminate|reflexivity|lia|]. rewrite E. f_equal.
  cbn [length] in L. apply nth_error_ext. intros [|[|[|k]]]; [rewrite R by (cbn [length]; lia)..|rewrite (proj2 (nth_error_None _ _)) by lia; now destruct k];
    cbn [nth_error]; f_equal; cbn [half Nat.sub Nat.div Nat.divmod fst seq map]; unfold held; cbn; change (Pos.to_nat 1) with 1%nat; change (Pos.to_nat 2) with 2%nat; cbn; vunfold; f_equal; field.
Qed.
Print Assumptions C62_imu_world_frame.
Print Assumptions C62_imu_total.
Print Assumptions C36_causal.
