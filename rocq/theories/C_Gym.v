(** * C82: episodes of the gymnasium environment. *)
From Coq Require Import Reals Lra String ZArith Lia Bool List.
From Verif Require Import Prelude M_Math P_Math P_Trig P_Rot C_Rot P_Mass M_Gym S_Gym.
Import ListNotations.
Local Open Scope string_scope. Local Open Scope list_scope. Local Open Scope R_scope.

(** ** The score *)
Lemma rotation_angle_all q : qunit q -> Rabs (Rabs (quat_angle q) - rotation_angle q) <= 5 * atol.
Proof.
  intros U. pose proof atol_pos as AP. destruct (vclose0_dec (qvec q)) as [C|C].
  2:{ rewrite rotation_angle_code, Rminus_eq_0, Rabs_R0 by auto. lra. }
  rewrite quat_angle_close by auto. rewrite Rabs_R0, Rminus_0_l, Rabs_Ropp.
  unfold rotation_angle. set (w := Rabs (qw q)). set (t := acos w).
  assert (W0 : 0 <= w) by apply Rabs_pos.
  assert (WW : w * w = qw q * qw q). { unfold w. rewrite <- Rabs_mult. apply Rabs_right. nra. }
  assert (V : qw q * qw q + dot (qvec q) (qvec q) = 1). { revert U. unfold qunit, qnorm2. destruct q. vunfold. lra. }
  assert (D0 : 0 <= dot (qvec q) (qvec q)). { destruct q. vunfold. nra. }
  assert (D : dot (qvec q) (qvec q) <= 3 * (atol * atol)).
  { destruct C as (C1 & C2 & C3). unfold close0 in *.
    assert (Sq : forall u, Rabs u <= atol -> u * u <= atol * atol).
    { intros u Hu. replace (u * u) with (Rabs u * Rabs u) by (rewrite <- Rabs_mult; apply Rabs_right; nra).
      apply Rmult_le_compat; auto using Rabs_pos. }
    apply Sq in C1, C2, C3. destruct q. vunfold. lra. }
  assert (W1 : w <= 1) by nra.
  assert (CT : cos t = w) by (apply cos_acos; lra).
  assert (TB : 0 <= t <= PI) by apply acos_bound. pose proof PI_pos.
  assert (T2 : t <= PI / 2). { destruct (Rle_dec t (PI / 2)); auto. exfalso. assert (cos t < 0); [apply cos_lt_0; lra|lra]. }
  pose proof (sin2_cos2 t) as S2. unfold Rsqr in S2. rewrite CT in S2.
  assert (N : 0 <= sin t) by (apply sin_ge_0; lra). pose proof atol_small.
  assert (SB : sin t <= 2 * atol) by nra. pose proof (sin_lower t (conj (proj1 TB) T2)) as SL.
  rewrite Rabs_right by lra. unfold Rmin in SL. destruct (Rle_dec t 1); lra.
Qed.

Lemma anorm_norm4 a : anorm a = norm4 a. Proof. reflexivity. Qed.
Lemma norm4_sq a : norm4 a * norm4 a = dot4 a a.
Proof. apply sqrt_sqrt. unfold dot4. nra. Qed.
Lemma norm4_zero a : norm4 a = 0 <-> a = Q4 0 0 0 0.
Proof.
  split.
  - intros H. pose proof (norm4_sq a) as E. rewrite H in E. unfold dot4 in E. destruct a as [w x y z]. cbn in *. f_equal; nra.
  - intros ->. unfold norm4, dot4. cbn. replace (_ + _) with 0 by ring. apply sqrt_0.
Qed.
Lemma normalized_unit a : a <> Q4 0 0 0 0 -> exists q, normalized a = Some q /\ q = times (/ norm4 a) a /\ qunit q /\ 0 < norm4 a.
Proof.
  intros NZ. unfold normalized. rewrite anorm_norm4. destruct (Req_EM_T (norm4 a) 0) as [Z|N]; [now apply norm4_zero in Z|].
  eexists. split; [reflexivity|]. split; [reflexivity|]. assert (0 < norm4 a) by (destruct (sqrt_pos (dot4 a a)) as [P|P]; [exact P|unfold norm4 in N; lra]).
  split; [|assumption]. pose proof (norm4_sq a) as E. unfold dot4 in E. unfold qunit, qnorm2, qdot, ascale. cbn [qw qx qy qz].
  change (anorm a) with (norm4 a). set (n := norm4 a) in *. replace 1 with (/ n * / n * (n * n)) by (field; lra). rewrite E. ring.
Qed.

Theorem C82_reward q a : qunit q ->
  (a <> Q4 0 0 0 0 -> exists r, reward_of q (normalized a) = Some r /\ scores q a r) /\
  (a = Q4 0 0 0 0 -> reward_of q (normalized a) = None) /\
  (forall c, c <> 0 -> a <> Q4 0 0 0 0 -> reward_of q (normalized (times c a)) = reward_of q (normalized a)) /\
  (forall c, c <> 0 -> reward_of q (normalized (times c q)) = Some 0).
Proof.
  intros U.
  assert (ND : forall b, b <> Q4 0 0 0 0 -> forall c, c <> 0 -> times c b <> Q4 0 0 0 0).
  { intros b NB c NC E. apply NB. unfold times in E. injection E as E1 E2 E3 E4. destruct b as [w x y z]. cbn in *.
    f_equal; (eapply Rmult_eq_reg_l; [|exact NC]); lra. }
  assert (SC : forall b c, c <> 0 -> b <> Q4 0 0 0 0 -> reward_of q (normalized (times c b)) = reward_of q (normalized b)).
  { intros b c NC NB. destruct (normalized_unit b NB) as (p & -> & -> & U1 & P1).
    destruct (normalized_unit _ (ND b NB c NC)) as (p2 & -> & -> & U2 & P2). unfold reward_of, option_map. f_equal. f_equal.
    assert (NN : norm4 (times c b) = Rabs c * norm4 b).
    { unfold norm4. replace (dot4 (times c b) (times c b)) with (Rsqr c * dot4 b b) by (unfold dot4, times, Rsqr; cbn; ring).
      rewrite sqrt_mult_alt by apply Rle_0_sqr. now rewrite sqrt_Rsqr_abs. }
    assert (CA : 0 < Rabs c) by now apply Rabs_pos_lt.
    assert (E : times (/ norm4 (times c b)) (times c b) = times (c / Rabs c) (times (/ norm4 b) b)).
    { rewrite NN. unfold times. cbn. f_equal; field; lra. }
    rewrite E. destruct (Rcase_abs c) as [C|C].
    - replace (times (c / Rabs c) (times (/ norm4 b) b)) with (qneg (times (/ norm4 b) b)).
      2:{ rewrite (Rabs_left c) by lra. unfold qneg, times. cbn. f_equal; field; lra. }
      apply (C22_angle_error q (times (/ norm4 b) b)); auto.
    - rewrite (Rabs_right c) by lra. replace (times (c / c) (times (/ norm4 b) b)) with (times (/ norm4 b) b); [reflexivity|].
      unfold times. cbn. f_equal; field; lra. }
  split; [|split; [|split]].
  - intros NZ. destruct (normalized_unit a NZ) as (p & -> & EP & UP & P). unfold reward_of, option_map. eexists. split; [reflexivity|].
    destruct (C22_angle_error q p U UP) as ([A0 A1] & _). unfold scores. split; [lra|].
    assert (UR : qunit (qmul (qinv q) p)) by auto using qunit_mul, qunit_inv.
    assert (W : angle_between q a = rotation_angle (qmul (qinv q) p)).
    { unfold angle_between, rotation_angle. f_equal. f_equal. replace (qw (qmul (qinv q) p)) with (dot4 q p).
      2:{ unfold dot4. destruct q, p. vunfold. ring. }
      rewrite EP. replace (dot4 q (times (/ norm4 a) a)) with (dot4 q a * / norm4 a) by (unfold dot4, times; cbn; ring).
      rewrite Rabs_mult, (Rabs_right (/ norm4 a)); [reflexivity|]. apply Rle_ge, Rlt_le. now apply Rinv_0_lt_compat. }
    rewrite W. unfold angle_error. split.
    + pose proof (rotation_angle_all _ UR) as B. rewrite <- Rabs_Ropp. replace (- (- Rabs (quat_angle (qmul (qinv q) p)) + rotation_angle (qmul (qinv q) p))) with (Rabs (quat_angle (qmul (qinv q) p)) - rotation_angle (qmul (qinv q) p)) by ring.
      unfold atol in B. lra.
    + destruct (vclose0_dec (qvec (qmul (qinv q) p))) as [C|C].
      * right. rewrite quat_angle_close by auto. rewrite Rabs_R0. ring.
      * left. now rewrite rotation_angle_code by auto.
  - intros ->. unfold normalized. rewrite anorm_norm4. destruct (Req_EM_T _ 0) as [Z|N]; [reflexivity|]. exfalso. apply N. now apply norm4_zero.
  - intros c NC NZ. now apply SC.
  - intros c NC. assert (NQ : q <> Q4 0 0 0 0). { intros ->. revert U. unfold qunit, qnorm2. vunfold. lra. }
    rewrite SC by auto. destruct (normalized_unit q NQ) as (p & -> & -> & UP & P). unfold reward_of, option_map. f_equal.
    assert (N1 : norm4 q = 1). { unfold norm4. change (dot4 q q) with (qnorm2 q). rewrite U. apply sqrt_1. }
    replace (times (/ norm4 q) q) with q. 2:{ rewrite N1, Rinv_1. destruct q. unfold times. cbn. f_equal; ring. }
    destruct (C22_angle_error q q U U) as (_ & _ & _ & -> & _). ring.
Qed.

(** ** Episodes *)
Lemma assign_ok obs c vals : length vals = length obs -> exists o2, assign obs c vals = Ok o2 /\ length o2 = length obs /\
  forall t row, nth_error obs t = Some row -> nth_error o2 t = Some (put c row (vec_at vals t)).
Proof.
  intros H. unfold assign. rewrite H, Nat.eqb_refl. eexists. split; [reflexivity|]. split; [rewrite map_length, combine_length; lia|].
  intros t row E. rewrite nth_error_map.
  assert (LT : (t < length vals)%nat) by (rewrite H; apply nth_error_Some; congruence).
  assert (EV : nth_error vals t = Some (vec_at vals t)) by (unfold vec_at; now apply nth_error_nth').
  erewrite nth_error_combine_Some; [reflexivity|exact E|exact EV].
Qed.
Lemma jax_get_ok l i : (i < length l)%nat -> jax_get l i = Ok (quat_at l i).
Proof.
  intros H. unfold jax_get. rewrite Nat.min_l by lia. unfold quat_at. now rewrite (nth_error_nth' _ (Q4 1 0 0 0) H).
Qed.

Section Episodes.
Context {Pose Rng : Type}.
Variable generator : Z -> @draw Pose.
Variables (rng_of_seed : Z -> Rng) (rng_entropy : Rng) (integers : Rng -> Z * Rng).
Notation reset := (reset generator rng_of_seed rng_entropy integers).
Notation env := (@env Pose Rng).

(** The recording chosen by a reset: from the given seed, else from the generator's current state. *)
Definition chosen (e : env) (seed : option Z) : @draw Pose :=
  generator (fst (integers (match seed with Some s => rng_of_seed s | None => match e_rng e with Some r => r | None => rng_entropy end end))).

Lemma reset_ok (e : env) seed a1 g1 a2 g2 truth : recorded (chosen e seed) a1 g1 a2 g2 truth -> truth <> [] ->
  exists rng obs, length obs = length truth /\ (forall t, (t < length truth)%nat -> nth_error obs t = Some (observation a1 g1 a2 g2 t)) /\
    reset e seed = Ok (mkEnv rng (e_action e) (Some (mkEp (dr_xs (chosen e seed)) truth obs)) 0, (observation a1 g1 a2 g2 0, quat_at truth 0)).
Proof.
  intros (( f1 & f2 & X1 & X2 & A1 & G1 & A2 & G2) & Y & L1 & L2 & L3 & L4) NE.
  assert (T0 : (0 < length truth)%nat) by (destruct truth; [congruence|cbn; lia]).
  unfold M_Gym.reset, chosen in *. destruct (integers _) as [js rng]. cbn [fst] in *. set (d := generator js) in *.
  unfold lookup at 1. rewrite Y. cbn [bind]. unfold sensor, lookup. rewrite X1, X2. cbn [bind]. rewrite A1, G1, A2, G2. cbn [bind].
  set (o0 := repeat (repeat 0 12) (length truth)). assert (LO : length o0 = length truth) by apply repeat_length.
  destruct (assign_ok o0 0 a1) as (o1 & -> & M1 & P1); [congruence|]. cbn [bind].
  destruct (assign_ok o1 3 g1) as (o2 & -> & M2 & P2); [congruence|]. cbn [bind].
  destruct (assign_ok o2 6 a2) as (o3 & -> & M3 & P3); [congruence|]. cbn [bind].
  destruct (assign_ok o3 9 g2) as (o4 & -> & M4 & P4); [congruence|]. cbn [bind].
  assert (ROW : forall t, (t < length truth)%nat -> nth_error o4 t = Some (observation a1 g1 a2 g2 t)).
  { intros t LT. assert (E0 : nth_error o0 t = Some (repeat 0 12)) by (unfold o0; now apply nth_error_repeat).
    apply P1, P2, P3, P4 in E0. rewrite E0. reflexivity. }
  exists (Some rng), o4. split; [congruence|]. split; [exact ROW|].
  unfold get_obs at 1. cbn [ep_obs]. rewrite (ROW 0%nat T0). cbn [bind]. unfold get_info. cbn [ep_truth]. rewrite jax_get_ok by exact T0. reflexivity.
Qed.

Theorem C82_reset (e : env) seed a1 g1 a2 g2 truth : recorded (chosen e seed) a1 g1 a2 g2 truth -> truth <> [] ->
  exists e', reset e seed = Ok (e', (observation a1 g1 a2 g2 0, quat_at truth 0)).
Proof. intros H NE. destruct (reset_ok e seed _ _ _ _ _ H NE) as (rng & obs & _ & _ & E). eexists. exact E. Qed.

Lemma step_at rng act xs truth obs k a : let ep := mkEp xs truth obs in
  fst (step (mkEnv rng act (Some ep) k : env) a) = mkEnv rng (Some (normalized a)) (Some ep) (S k).
Proof. reflexivity. Qed.
Lemma steps_at rng act xs truth obs k acts : let ep := mkEp xs truth obs in
  forall i a, nth_error acts i = Some a ->
    exists act', nth_error (snd (steps (mkEnv rng act (Some ep) k : env) acts)) i = Some (snd (step (mkEnv rng act' (Some ep) (k + i) : env) a)).
Proof.
  intros ep. revert act k. induction acts as [|b r IH]; intros act k i a E; [destruct i; discriminate|].
  cbn [steps]. destruct (step _ b) as [e1 o1] eqn:S1. pose proof (step_at rng act xs truth obs k b) as F. cbn zeta in F. fold ep in F.
  rewrite S1 in F. cbn [fst] in F. subst e1. destruct (steps _ r) as [e2 os] eqn:S2. cbn [snd].
  destruct i as [|i]; cbn [nth_error] in *.
  - injection E as <-. exists act. rewrite Nat.add_0_r, S1. reflexivity.
  - destruct (IH (Some (normalized b)) (S k) i a E) as (act' & Q). rewrite S2 in Q. cbn [snd] in Q. exists act'. rewrite Q.
    now replace (S k + i)%nat with (k + S i)%nat by lia.
Qed.

(** All answers of an episode: the action at time k is scored against the truth at time k and answered by what is seen at time k + 1;
    the episode is cut off when the last observation is shown, never ended otherwise, and steps beyond that fail. *)
Theorem C82_episode (e e' : env) seed first a1 g1 a2 g2 truth actions k a :
  recorded (chosen e seed) a1 g1 a2 g2 truth -> truth <> [] -> reset e seed = Ok (e', first) ->
  nth_error actions k = Some a ->
  let T := length truth in let answers := snd (steps e' actions) in
  ((k + 1 < T)%nat -> exists o, nth_error answers k = Some (Ok o) /\
     o_obs o = observation a1 g1 a2 g2 (k + 1) /\ o_info o = quat_at truth (k + 1) /\
     o_terminated o = false /\ (o_truncated o = true <-> (k + 2 = T)%nat) /\
     (qunit (quat_at truth k) -> a <> Q4 0 0 0 0 -> exists r, o_reward o = Some r /\ scores (quat_at truth k) a r)) /\
  ((T <= k + 1)%nat -> nth_error answers k = Some (Err EIndex)).
Proof.
  intros H NE R N T answers. destruct (reset_ok e seed _ _ _ _ _ H NE) as (rng & obs & LO & RO & E). rewrite E in R. injection R as <- _.
  destruct (steps_at rng (e_action e) (dr_xs (chosen e seed)) truth obs 0 actions k a N) as (act' & Q). cbn zeta in Q.
  fold answers in Q. rewrite Q. cbn [step e_ep e_t Nat.add snd]. rewrite Nat.add_0_l in *. cbn [step e_ep e_t snd]. unfold step. cbn [e_ep e_t snd ep_truth].
  replace (S k - 1)%nat with k by lia. replace (k + 1)%nat with (S k) by lia. split.
  - intros LT. rewrite (jax_get_ok truth k) by (subst T; lia). cbn [bind]. unfold get_obs, get_info. cbn [ep_obs ep_truth].
    rewrite (RO (S k)) by exact LT. cbn [bind]. rewrite (jax_get_ok truth (S k)) by exact LT. cbn [bind]. eexists. split; [reflexivity|].
    cbn [o_obs o_info o_terminated o_truncated o_reward]. repeat (split; [reflexivity|]). split.
    + rewrite Z.leb_le. fold T. lia.
    + intros U NZ. now apply C82_reward.
  - intros GE. unfold jax_get. destruct (nth_error truth (Nat.min k (length truth - 1))) eqn:EN.
    + cbn [bind]. unfold get_obs. cbn [ep_obs]. replace (nth_error obs (S k)) with (@None (list R)); [reflexivity|]. symmetry. apply nth_error_None. subst T. lia.
    + reflexivity.
Qed.

(** The truth handed out with every observation is a perfect answer: who returns it scores 0 throughout. *)
Theorem C82_oracle (e e' : env) seed first a1 g1 a2 g2 truth actions k c :
  recorded (chosen e seed) a1 g1 a2 g2 truth -> reset e seed = Ok (e', first) -> qunit (quat_at truth k) -> c <> 0 ->
  nth_error actions k = Some (times c (quat_at truth k)) -> (k + 1 < length truth)%nat ->
  exists o, nth_error (snd (steps e' actions)) k = Some (Ok o) /\ o_reward o = Some 0.
Proof.
  intros H R U NC N LT. assert (NE : truth <> []) by (intros ->; cbn in LT; lia).
  destruct (reset_ok e seed _ _ _ _ _ H NE) as (rng & obs & LO & RO & E). rewrite E in R. injection R as <- _.
  destruct (steps_at rng (e_action e) (dr_xs (chosen e seed)) truth obs 0 actions k _ N) as (act' & Q). cbn zeta in Q.
  rewrite Q. rewrite Nat.add_0_l. unfold step. cbn [e_ep e_t snd ep_truth].
  replace (S k - 1)%nat with k by lia. rewrite (jax_get_ok truth k) by lia. cbn [bind]. unfold get_obs, get_info. cbn [ep_obs ep_truth].
  rewrite (RO (S k)) by lia. cbn [bind]. rewrite (jax_get_ok truth (S k)) by lia. cbn [bind]. eexists. split; [reflexivity|].
  cbn [o_reward]. now apply C82_reward.
Qed.

(** With a seed, nothing of the past matters for what an episode shows and scores. *)
Theorem C82_seed (e1 e2 : env) s : 
  match reset e1 (Some s), reset e2 (Some s) with
  | Ok (e1', o1), Ok (e2', o2) => o1 = o2 /\ forall actions, snd (steps e1' actions) = snd (steps e2' actions)
  | Err x, Err y => x = y
  | _, _ => False
  end.
Proof.
  assert (SE : forall rng ac1 ac2 ep k acts, snd (steps (mkEnv rng ac1 ep k : env) acts) = snd (steps (mkEnv rng ac2 ep k : env) acts)).
  { intros rng ac1 ac2 ep k acts. revert ac1 ac2 k. induction acts as [|a r IH]; intros; [reflexivity|]. cbn [steps]. unfold step. cbn [e_ep]. destruct ep as [ep|].
    - cbn [e_t e_rng]. destruct (steps _ r) as [e' os]. reflexivity.
    - specialize (IH ac1 ac2 k). destruct (steps (mkEnv rng ac1 None k) r) as [? os1]. destruct (steps (mkEnv rng ac2 None k) r) as [? os2]. cbn [snd] in *. congruence. }
  unfold M_Gym.reset. destruct (integers (rng_of_seed s)) as [js rng].
  destruct (lookup (dr_y (generator js)) "seg2") as [truth|]; cbn [bind]; [|reflexivity].
  destruct (sensor (dr_X (generator js)) "seg1" "acc") as [b1|]; cbn [bind]; [|reflexivity]. destruct (assign _ 0 b1) as [o1|]; cbn [bind]; [|reflexivity].
  destruct (sensor (dr_X (generator js)) "seg1" "gyr") as [b2|]; cbn [bind]; [|reflexivity]. destruct (assign _ 3 b2) as [o2|]; cbn [bind]; [|reflexivity].
  destruct (sensor (dr_X (generator js)) "seg2" "acc") as [b3|]; cbn [bind]; [|reflexivity]. destruct (assign _ 6 b3) as [o3|]; cbn [bind]; [|reflexivity].
  destruct (sensor (dr_X (generator js)) "seg2" "gyr") as [b4|]; cbn [bind]; [|reflexivity]. destruct (assign _ 9 b4) as [o4|]; cbn [bind]; [|reflexivity].
  destruct (get_obs _ 0) as [oo|]; cbn [bind]; [|reflexivity]. destruct (get_info _ 0) as [ii|]; cbn [bind]; [|reflexivity].
  split; [reflexivity|]. intros acts. apply SE.
Qed.

(** ** Pictures *)
(** After the actions [actions] and one more, [a], a picture shows the pose of the current time and, as prediction, that last action. *)
Theorem C82_render (e e' : env) seed first a1 g1 a2 g2 truth actions a :
  recorded (chosen e seed) a1 g1 a2 g2 truth -> truth <> [] -> reset e seed = Ok (e', first) -> a <> Q4 0 0 0 0 ->
  render (fst (steps e' (actions ++ [a]))) =
    Ok (SPrediction (nth_error (dr_xs (chosen e seed)) (length actions + 1)) [("seg1", Some (Q4 1 0 0 0)); ("seg2", Some (times (/ norm4 a) a))]).
Proof.
  intros H NE R NZ. destruct (reset_ok e seed _ _ _ _ _ H NE) as (rng & obs & LO & RO & E). rewrite E in R. injection R as <- _.
  assert (F : forall acts act k, fst (steps (mkEnv rng act (Some (mkEp (dr_xs (chosen e seed)) truth obs)) k : env) (acts ++ [a])) =
             mkEnv rng (Some (normalized a)) (Some (mkEp (dr_xs (chosen e seed)) truth obs)) (k + length acts + 1)).
  { induction acts as [|b r IH]; intros act k; cbn [app steps].
    - unfold step. cbn [e_ep e_t e_rng fst length]. f_equal. lia.
    - unfold step. cbn [e_ep e_t e_rng]. specialize (IH (Some (normalized b)) (S k)). destruct (steps _ (r ++ [a])) as [e2 os]. cbn [fst length] in *. rewrite IH. f_equal. lia. }
  rewrite F. unfold render. cbn [e_ep e_t e_action ep_xs]. destruct (normalized_unit a NZ) as (p & -> & -> & _). rewrite Nat.add_0_l. reflexivity.
Qed.
(** The first picture of a new environment shows the pose alone. *)
Theorem C82_render_first seed e' first a1 g1 a2 g2 truth :
  recorded (chosen env_init seed) a1 g1 a2 g2 truth -> truth <> [] -> reset env_init seed = Ok (e', first) ->
  render e' = Ok (SPlain (nth_error (dr_xs (chosen env_init seed)) 0)).
Proof.
  intros H NE R. destruct (reset_ok env_init seed _ _ _ _ _ H NE) as (rng & obs & LO & RO & E). rewrite E in R. injection R as <- _. reflexivity.
Qed.
(** A step before the first reset fails. *)
Theorem C82_unreset (rng : option Rng) act k a : step (mkEnv rng act None k : env) a = (mkEnv rng act None k, Err EOther).
Proof. reflexivity. Qed.
End Episodes.

(** ** Example and what does not hold *)
(** A recording of three samples: the second segment is turned by half a turn between the first two. *)
Definition gym_truth : list quat := [Q4 1 0 0 0; Q4 0 1 0 0; Q4 0 1 0 0].
Definition gym_vecs (x : R) : list vec3 := [V3 x 0 1; V3 x 1 1; V3 x 2 1].
Definition gym_draw (z : Z) : @draw Z :=
  mkDraw [("seg1", [("acc", gym_vecs 1); ("gyr", gym_vecs 2)]); ("seg2", [("gyr", gym_vecs 4); ("acc", gym_vecs 3)])]
    [("seg1", [Q4 1 0 0 0; Q4 1 0 0 0; Q4 1 0 0 0]); ("seg2", gym_truth)] [z; z + 1; z + 2]%Z.
Definition gym_reset := reset gym_draw (fun s => s) 0%Z (fun r : Z => (r, (r + 10)%Z)).
Lemma gym_recorded (e : @env Z Z) seed : recorded (chosen gym_draw (fun s => s) 0%Z (fun r : Z => (r, (r + 10)%Z)) e seed) (gym_vecs 1) (gym_vecs 2) (gym_vecs 3) (gym_vecs 4) gym_truth.
Proof. unfold recorded, chosen, gym_draw. cbn [dr_X dr_y]. split; [|repeat split]. do 2 eexists. repeat split; reflexivity. Qed.

Example C82_example : exists e' o,
  gym_reset env_init (Some 7%Z) = Ok (e', ([1; 0; 1; 2; 0; 1; 3; 0; 1; 4; 0; 1], Q4 1 0 0 0)) /\
  nth_error (snd (steps e' [Q4 (-3) 0 0 0; Q4 1 0 0 0; Q4 1 0 0 0])) 1 = Some (Ok o) /\
  o_obs o = [1; 2; 1; 2; 2; 1; 3; 2; 1; 4; 2; 1] /\ o_truncated o = true /\ (exists r, o_reward o = Some r /\ scores (Q4 0 1 0 0) (Q4 1 0 0 0) r) /\
  angle_between (Q4 0 1 0 0) (Q4 1 0 0 0) = PI /\
  nth_error (snd (steps e' [Q4 (-3) 0 0 0; Q4 1 0 0 0; Q4 1 0 0 0])) 2 = Some (Err EIndex).
Proof.
  assert (NE : gym_truth <> []) by discriminate.
  destruct (C82_reset _ _ _ _ env_init (Some 7%Z) _ _ _ _ _ (gym_recorded _ _) NE) as (e' & R).
  pose proof (C82_episode _ _ _ _ env_init e' (Some 7%Z) _ _ _ _ _ _ [Q4 (-3) 0 0 0; Q4 1 0 0 0; Q4 1 0 0 0] 1 (Q4 1 0 0 0) (gym_recorded _ _) NE R eq_refl) as [P _].
  pose proof (C82_episode _ _ _ _ env_init e' (Some 7%Z) _ _ _ _ _ _ [Q4 (-3) 0 0 0; Q4 1 0 0 0; Q4 1 0 0 0] 2 (Q4 1 0 0 0) (gym_recorded _ _) NE R eq_refl) as [_ P2].
  destruct P as (o & A & B & C & D & E & F); [cbn; lia|]. exists e', o. split; [exact R|]. split; [exact A|]. split; [exact B|].
  split; [now apply E|]. split.
  - apply F; [unfold qunit, qnorm2, qdot, quat_at; cbn; ring|]. intros X. injection X. lra.
  - split; [|apply P2; cbn; lia]. unfold angle_between, norm4, dot4. cbn [qw qx qy qz].
    replace (0 * 1 + 1 * 0 + 0 * 0 + 0 * 0) with 0 by ring. rewrite Rabs_R0. unfold Rdiv. rewrite Rmult_0_l, acos_0. field.
Qed.

(** The environment announces rewards of at most 0; an action of zeros, which lies in the action space, gets NaN. *)
Theorem C82_reward_range_refuted : exists e' first o,
  gym_reset env_init (Some 7%Z) = Ok (e', first) /\ snd (step e' (Q4 0 0 0 0)) = Ok o /\ o_reward o = None.
Proof.
  destruct (reset_ok gym_draw (fun s => s) 0%Z (fun r : Z => (r, (r + 10)%Z)) env_init (Some 7%Z) _ _ _ _ _ (gym_recorded _ _)) as (rng & obs & LO & RO & E); [discriminate|].
  do 2 eexists. eexists. split; [exact E|]. unfold step. cbn [e_ep e_t snd ep_truth]. rewrite (jax_get_ok gym_truth (1 - 1)) by (cbn; lia). cbn [bind].
  unfold get_obs, get_info. cbn [ep_obs ep_truth]. rewrite (RO 1%nat) by (cbn; lia). cbn [bind]. rewrite (jax_get_ok gym_truth 1) by (cbn; lia). cbn [bind].
  split; [reflexivity|]. cbn [o_reward]. apply (C82_reward (quat_at gym_truth (1 - 1)) (Q4 0 0 0 0)); [unfold qunit, qnorm2, qdot, quat_at; cbn; ring|reflexivity].
Qed.

(** A picture does not show the answer beside the pose it was given for: a perfect answer looks wrong by half a turn, since it is
    drawn into the pose of the next sample. *)
Theorem C82_picture_refuted : exists e' first o,
  gym_reset env_init (Some 7%Z) = Ok (e', first) /\ snd (step e' (quat_at gym_truth 0)) = Ok o /\ o_reward o = Some 0 /\
  render (fst (step e' (quat_at gym_truth 0))) = Ok (SPrediction (Some 8%Z) [("seg1", Some (Q4 1 0 0 0)); ("seg2", Some (quat_at gym_truth 0))]) /\
  nth_error (dr_xs (gym_draw 7)) 1 = Some 8%Z /\ quat_at gym_truth 1 = Q4 0 1 0 0 /\ angle_between (quat_at gym_truth 1) (quat_at gym_truth 0) = PI.
Proof.
  assert (NE : gym_truth <> []) by discriminate.
  destruct (C82_reset gym_draw (fun s => s) 0%Z (fun r : Z => (r, (r + 10)%Z)) env_init (Some 7%Z) _ _ _ _ _ (gym_recorded _ _) NE) as (e' & R).
  pose proof (C82_oracle _ _ _ _ env_init e' (Some 7%Z) _ _ _ _ _ _ [quat_at gym_truth 0] 0 1 (gym_recorded _ _) R) as P.
  destruct P as (o & A & B); [unfold qunit, qnorm2, qdot, quat_at; cbn; ring|lra| |cbn; lia|].
  { cbn [nth_error]. unfold quat_at, times. cbn. do 2 f_equal; ring. }
  pose proof (C82_render _ _ _ _ env_init e' (Some 7%Z) _ _ _ _ _ _ [] (quat_at gym_truth 0) (gym_recorded _ _) NE R) as Q.
  cbn [app steps] in A, Q. destruct (step e' (quat_at gym_truth 0)) as [e1 o1] eqn:S1. cbn [fst snd nth_error] in *. injection A as ->.
  exists e'. eexists. exists o. rewrite S1. cbn [fst snd]. split; [exact R|]. split; [reflexivity|]. split; [exact B|]. split.
  - rewrite Q. 2:{ unfold quat_at. cbn. intros X. injection X. lra. } cbn. unfold norm4, dot4, times, quat_at. cbn.
    replace (1 * 1 + 0 * 0 + 0 * 0 + 0 * 0) with 1 by ring. rewrite sqrt_1. do 6 f_equal. f_equal; lra.
  - split; [reflexivity|]. split; [reflexivity|]. unfold angle_between, norm4, dot4, quat_at. cbn [qw qx qy qz nth gym_truth].
    replace (0 * 1 + 1 * 0 + 0 * 0 + 0 * 0) with 0 by ring. rewrite Rabs_R0. unfold Rdiv. rewrite Rmult_0_l, acos_0. field.
Qed.

(** The first picture of an episode may show the last answer of the previous one: the same seed, two pictures. *)
Theorem C82_picture_history_refuted : exists e1 e2 f1 f2,
  gym_reset env_init (Some 7%Z) = Ok (e1, f1) /\ gym_reset (fst (step e1 (Q4 0 0 1 0))) (Some 7%Z) = Ok (e2, f2) /\ f1 = f2 /\
  render e1 = Ok (SPlain (Some 7%Z)) /\ exists a, render e2 = Ok (SPrediction (Some 7%Z) [("seg1", Some (Q4 1 0 0 0)); ("seg2", Some a)]).
Proof.
  assert (NE : gym_truth <> []) by discriminate.
  destruct (reset_ok gym_draw (fun s => s) 0%Z (fun r : Z => (r, (r + 10)%Z)) env_init (Some 7%Z) _ _ _ _ _ (gym_recorded _ _) NE) as (r1 & obs1 & _ & _ & E1).
  match type of E1 with _ = Ok (?e1, _) =>
    destruct (reset_ok gym_draw (fun s => s) 0%Z (fun r : Z => (r, (r + 10)%Z)) (fst (step e1 (Q4 0 0 1 0))) (Some 7%Z) _ _ _ _ _ (gym_recorded _ _) NE) as (r2 & obs2 & _ & _ & E2) end.
  do 4 eexists. split; [exact E1|]. split; [exact E2|]. split; [reflexivity|]. split; [reflexivity|].
  destruct (normalized_unit (Q4 0 0 1 0)) as (p & N & _); [intros X; injection X; lra|]. exists p. unfold render. cbn [e_ep e_t e_action ep_xs step fst]. rewrite N. reflexivity.
Qed.
Print Assumptions C82_episode.
